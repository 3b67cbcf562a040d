(** DecomposeSim.v -- decomposition sees a chunk only through its spelling. *)
From Verif Require Import Base Peg Rules RulesApi PegMeta RulesTotal PegChars PegSim Span Decompose
  DecomposeSpec DecomposeFacts History DecomposeMachine SpecText DecomposeThms Utf8 Selmaho ClassifyTable Classify ClassifyFacts.
From Coq Require Import Lia Arith.

(** A relation between chunks that the steps of decomposition respect. *)
Section Rel.
Context (R : list char -> list char -> Prop).
Hypothesis R_nil : forall t t', R t t' -> (t = [] <-> t' = []).
Hypothesis R_refl : R [] [].
Hypothesis R_app : forall a a' b b', R a a' -> R b b' -> R (a ++ b) (a' ++ b').
Hypothesis R_fall : forall t t', R t t' ->
  match fall_off_ev t, fall_off_ev t' with
  | Some r, Some r' => R r r' /\ R (before t r) (before t' r')
  | None, None => True
  | _, _ => False
  end.
Hypothesis R_cmevla : forall t t', R t t' -> simple_cmevla_check t = simple_cmevla_check t'.
Hypothesis R_trim : forall t t', R t t' -> R (trim_end_commas t) (trim_end_commas t').
Hypothesis R_post : forall t t', R t t' -> post_word_ev t = post_word_ev t'.

Lemma fall_rel k : forall k' t t', R t t' -> (List.length t <= k)%nat -> (List.length t' <= k')%nat ->
  Forall2 R (fst (fall k t)) (fst (fall k' t')) /\ R (snd (fall k t)) (snd (fall k' t')).
Proof.
  assert (Z : forall t k, t = [] -> fall k t = ([], t)).
  { intros t k0 ->. destruct k0; [reflexivity|]. cbn [fall]. pose proof (fall_off_ev_some []) as F.
    destruct (fall_off_ev []) as [r|]; [|reflexivity]. destruct (F r eq_refl) as (_ & _ & F3). cbn in F3. lia. }
  induction k as [|k IH]; intros k' t t' H Hk Hk'.
  - destruct t; [|cbn in Hk; lia]. assert (t' = []) by (apply (R_nil _ _ H); reflexivity). subst t'.
    rewrite !Z by reflexivity. split; [constructor|apply R_refl].
  - destruct k' as [|k'].
    + destruct t'; [|cbn in Hk'; lia]. assert (t = []) by (apply (R_nil _ _ H); reflexivity). subst t.
      rewrite !Z by reflexivity. split; [constructor|apply R_refl].
    + cbn [fall]. pose proof (R_fall t t' H) as S1.
      pose proof (fall_off_ev_some t) as F. pose proof (fall_off_ev_some t') as F'.
      destruct (fall_off_ev t) as [r|], (fall_off_ev t') as [r'|]; try contradiction.
      * destruct (F r eq_refl) as (_ & _ & L). destruct (F' r' eq_refl) as (_ & _ & L'). destruct S1 as [S1 S2].
        specialize (IH k' r r' S1 ltac:(lia) ltac:(lia)).
        destruct (fall k r) as [ws rest], (fall k' r') as [ws' rest']. cbn [fst snd] in *.
        split; [constructor; tauto|tauto].
      * split; [constructor|exact H].
Qed.

Lemma Forall2_removelast {A} (Q : A -> A -> Prop) l l' : Forall2 Q l l' -> Forall2 Q (removelast l) (removelast l').
Proof.
  induction 1 as [|a a' l l' Ha Hl IH]; [constructor|]. cbn [removelast].
  inversion Hl; subst; [constructor|]. constructor; [exact Ha|exact IH].
Qed.

Lemma Forall2_last {A} (Q : A -> A -> Prop) l l' d d' : Q d d' -> Forall2 Q l l' -> Q (last l d) (last l' d').
Proof.
  intros Hd. induction 1 as [|a a' l l' Ha Hl IH]; [exact Hd|]. cbn [last].
  inversion Hl; subst; [exact Ha|exact IH].
Qed.

Lemma chunk_words_rel t t' : R t t' -> Forall2 R (chunk_words t) (chunk_words t').
Proof.
  intros H. unfold chunk_words. rewrite <- (R_cmevla t t' H).
  destruct (simple_cmevla_check t); [constructor; [exact H|constructor]|].
  pose proof (fall_rel _ _ t t' H (Nat.le_refl _) (Nat.le_refl _)) as [F1 F2].
  destruct (fall _ t) as [ws rest], (fall _ t') as [ws' rest']. cbn [fst snd] in *.
  assert (HH : forall us us' rr rr', Forall2 R us us' -> R rr rr' ->
    Forall2 R (match trim_end_commas rr with [] => us | _ => us ++ [trim_end_commas rr] end)
                (match trim_end_commas rr' with [] => us' | _ => us' ++ [trim_end_commas rr'] end)).
  { intros us us' rr rr' Hu Hr. apply R_trim in Hr. pose proof (R_nil _ _ Hr) as N1.
    destruct (trim_end_commas rr), (trim_end_commas rr'); try exact Hu;
      try (exfalso; destruct N1 as [N1 N2]; try discriminate (N1 eq_refl); discriminate (N2 eq_refl)).
    apply Forall2_app; [exact Hu|]. constructor; [exact Hr|constructor]. }
  inversion F1 as [E1 E2|w w' us us' Hw Hus E1 E2]; [apply HH; [constructor|exact F2]|].
  rewrite E1, E2. rewrite (R_post rest rest' F2).
  destruct (post_word_ev rest').
  - apply HH; [exact F1|exact F2].
  - apply HH; [apply Forall2_removelast; exact F1|].
    apply R_app; [|exact F2]. apply Forall2_last; [apply R_refl|exact F1].
Qed.

End Rel.

Section Norm.
Context (nu : char -> char) (Hnu : good_norm nu).
Local Notation spell := (spell_by nu).
Local Notation sim := (sim_by nu).

Lemma ends_comma_app a b : ends_comma (a ++ b) = match b with [] => ends_comma a | _ => ends_comma b end.
Proof.
  destruct b as [|x b]; [rewrite app_nil_r; reflexivity|]. unfold ends_comma.
  destruct (exists_last (l := x :: b)) as (l & y & E); [discriminate|]. rewrite E, app_assoc, !last_last. reflexivity.
Qed.

Lemma sim_app a a' b b' : sim a a' -> sim b b' -> sim (a ++ b) (a' ++ b').
Proof.
  intros Ha Hb. split.
  - rewrite !spell_app. rewrite (proj1 Ha), (proj1 Hb). reflexivity.
  - rewrite !ends_comma_app. pose proof (sim_nil nu b b' Hb) as E.
    destruct b, b'; [apply Ha| | |apply Hb]; exfalso; destruct E as [E1 E2];
      [discriminate (E1 eq_refl)|discriminate (E2 eq_refl)].
Qed.

Lemma fall_off_sim t t' : sim t t' ->
  match fall_off_ev t, fall_off_ev t' with
  | Some r, Some r' => sim r r' /\ sim (before t r) (before t' r')
  | None, None => True
  | _, _ => False
  end.
Proof.
  intros H. pose proof (ev_sim nu Hnu N_cmavo_minimal t t' H) as A.
  pose proof (ev_sim nu Hnu N_explicitly_stressed_brivla_minimal t t' H) as B.
  assert (HH : match fall_off_ev t, fall_off_ev t' with
    | Some r, Some r' => sim r r' | None, None => True | _, _ => False end).
  { unfold fall_off_ev.
    destruct (ev (Call N_cmavo_minimal) t), (ev (Call N_cmavo_minimal) t'); try tauto.
    destruct (ev (Call N_explicitly_stressed_brivla_minimal) t), (ev (Call N_explicitly_stressed_brivla_minimal) t'); tauto. }
  pose proof (fall_off_ev_some t) as F. pose proof (fall_off_ev_some t') as F'.
  destruct (fall_off_ev t) as [r|], (fall_off_ev t') as [r'|]; try tauto.
  split; [exact HH|]. destruct (F r eq_refl) as (E & W & _). destruct (F' r' eq_refl) as (E' & W' & _).
  split.
  - destruct H as [H _]. rewrite E, E', !spell_app, (proj1 HH) in H. apply app_inv_tail in H. exact H.
  - destruct W as (a & c & -> & Hc & _). destruct W' as (a' & c' & -> & Hc' & _).
    unfold ends_comma. rewrite !last_last. congruence.
Qed.

Lemma find_filter {A} (f : A -> bool) l : find f l = match filter f l with x :: _ => Some x | [] => None end.
Proof. induction l as [|a l IH]; [reflexivity|]. cbn. destruct (f a); [reflexivity|exact IH]. Qed.

Lemma filter_rev {A} (f : A -> bool) l : filter f (rev l) = rev (filter f l).
Proof.
  induction l as [|a l IH]; [reflexivity|]. cbn [rev filter]. rewrite filter_app, IH. cbn [filter].
  destruct (f a); [reflexivity|]. rewrite app_nil_r. reflexivity.
Qed.

Lemma cmevla_check_sim t t' : sim t t' -> simple_cmevla_check t = simple_cmevla_check t'.
Proof.
  intros [H _]. unfold simple_cmevla_check. rewrite !find_filter, !filter_rev. unfold spell_by in H.
  apply (f_equal (@rev _)) in H. rewrite <- !map_rev in H.
  destruct (rev (filter _ t)) as [|c l], (rev (filter _ t')) as [|c' l']; try discriminate; [reflexivity|].
  cbn [map] in H. injection H as H _. apply (twin_fun is_consonant); [|apply Hnu, H].
  repeat constructor.
Qed.

Lemma trim_sim t t' : sim t t' -> sim (trim_end_commas t) (trim_end_commas t').
Proof.
  assert (S1 : forall t, spell (trim_end_commas t) = spell t).
  { intros u. destruct (trim_end_split u) as (tail & E & Ht). rewrite E at 2. rewrite spell_app.
    replace (spell tail) with (@nil char); [rewrite app_nil_r; reflexivity|].
    clear E. unfold spell_by. induction Ht as [|c tl Hc Htl IH]; [reflexivity|]. cbn [filter]. rewrite Hc. cbn [negb]. exact IH. }
  assert (S2 : forall t, ends_comma (trim_end_commas t) = false).
  { intros u. destruct (trim_end_commas u) as [|x l] eqn:E; [reflexivity|].
    destruct (trim_end_has u) as (a & c & Ha & Hc); [congruence|]. rewrite <- E, Ha. unfold ends_comma. rewrite last_last. exact Hc. }
  intros [H _]. split; [rewrite !S1; exact H|rewrite !S2; reflexivity].
Qed.

Lemma post_word_sim t t' : sim t t' -> post_word_ev t = post_word_ev t'.
Proof. intros H. unfold post_word_ev. rewrite !(fun x => accepts_sim nu Hnu x t t' H). reflexivity. Qed.

Lemma chunk_words_sim t t' : sim t t' -> Forall2 sim (chunk_words t) (chunk_words t').
Proof.
  apply chunk_words_rel; [apply sim_nil|apply sim_refl|apply sim_app|apply fall_off_sim|apply cmevla_check_sim
    |apply trim_sim|apply post_word_sim].
Qed.

(** texts, chunk by chunk *)
Definition text_sim (t t' : list char) : Prop := Forall2 sim (split_seps t) (split_seps t').

Definition word_list (t : list char) : list (list char) := flat_map chunk_words (split_seps t).

Lemma word_list_sim t t' : text_sim t t' -> Forall2 sim (word_list t) (word_list t').
Proof.
  unfold text_sim, word_list. induction 1 as [|c c' l l' Hc Hl IH]; [constructor|].
  cbn [flat_map]. apply Forall2_app; [apply chunk_words_sim; exact Hc|exact IH].
Qed.
End Norm.

(** The spans of the words slice the words. *)
Definition cuts (t : list char) (sp : span) (w : list char) : Prop :=
  exists x y, t = x ++ w ++ y /\ sp = mkspan (blen x) (blen x + blen w).

Lemma spans_cut : forall ws x y, Forall2 (cuts (x ++ List.concat ws ++ y)) (spans_of (blen x) ws) ws.
Proof.
  induction ws as [|w ws IH]; intros x y; cbn [spans_of]; [constructor|].
  constructor.
  - exists x, (List.concat ws ++ y). cbn [List.concat]. rewrite <- app_assoc. auto.
  - cbn [List.concat]. specialize (IH (x ++ w) y). rewrite blen_app in IH.
    replace (x ++ (w ++ List.concat ws) ++ y) with ((x ++ w) ++ List.concat ws ++ y)
      by (rewrite <- !app_assoc; reflexivity). exact IH.
Qed.

Lemma Forall2_impl {A B} (R S : A -> B -> Prop) l l' : (forall a b, R a b -> S a b) -> Forall2 R l l' -> Forall2 S l l'.
Proof. intros H. induction 1; constructor; auto. Qed.

Lemma text_words_cut t : Forall2 (cuts t) (text_words t) (word_list t).
Proof.
  unfold text_words, chunks_of, word_list.
  assert (G : forall n t x, (List.length t <= n)%nat ->
    Forall2 (cuts (x ++ t)) (flat_map (fun oc => spans_of (fst oc) (chunk_words (snd oc))) (chunks_off (split_seps t) (blen x)))
      (flat_map chunk_words (split_seps t))).
  2: { exact (G (List.length t) t [] (Nat.le_refl _)). }
  clear t. induction n as [|n IH]; intros t x Hn.
  - destruct t; [|cbn in Hn; lia]. cbn [split_seps chunks_off flat_map fst snd app].
    assert (E : chunk_words [] = []) by (apply chunk_words_nil; constructor). rewrite E. constructor.
  - assert (D : Forall (fun c => split_or_trim_condition c = false) t \/
                exists a s b, t = a ++ s :: b /\ split_or_trim_condition s = true /\ Forall (fun c => split_or_trim_condition c = false) a).
    { clear. induction t as [|c t IHt]; [left; constructor|].
      destruct (split_or_trim_condition c) eqn:E.
      - right. exists [], c, t. auto.
      - destruct IHt as [IHt|(a & s & b & -> & Hs & Ha)]; [left; constructor; assumption|].
        right. exists (c :: a), s, b. split; [reflexivity|]. split; [exact Hs|constructor; assumption]. }
    destruct D as [D|(a & s & b & -> & Hs & Ha)].
    + rewrite split_seps_one by exact D. cbn [chunks_off flat_map fst snd]. rewrite !app_nil_r.
      destruct (chunk_words_tile t) as (tail & E & _). rewrite E at 1. apply spans_cut.
    + rewrite split_seps_app by exact Hs. rewrite split_seps_one by exact Ha. cbn [app chunks_off flat_map fst snd].
      apply Forall2_app.
      * destruct (chunk_words_tile a) as (tail & E & _). rewrite E at 1. rewrite <- app_assoc.
        apply spans_cut.
      * specialize (IH b (x ++ a ++ [s])). rewrite !blen_app, blen_cons, (sep_clen s Hs) in IH. cbn [blen] in IH.
        replace (blen x + blen a + 1) with (blen x + (blen a + (1 + 0))) by lia.
        replace (x ++ a ++ s :: b) with ((x ++ a ++ [s]) ++ b) by (rewrite <- !app_assoc; reflexivity).
        apply IH. rewrite app_length in Hn. cbn in Hn. lia.
Qed.

Lemma cuts_slice s sp w : cuts (txt s) sp w -> span_slice sp s = Some (mkstr (ptr s + sp_start sp) w).
Proof.
  intros (x & y & E & ->). destruct s as [p t]. cbn [txt ptr sp_start] in *. subst t. apply s_get_mid.
Qed.

(** ** Comma edits *)

Lemma split_seps_insert a c b : split_or_trim_condition c = false ->
  Forall2 (sim_by (fun x => x)) (split_seps (a ++ c :: b)) (split_seps (a ++ 44 :: c :: b)).
Proof.
  intros Hc.
  assert (R : forall l, Forall2 (sim_by (fun x => x)) l l) by (induction l; constructor; auto using sim_refl).
  assert (Hk : split_or_trim_condition 44 = false) by reflexivity.
  assert (E1 : exists x l, split_seps (c :: b) = (c :: x) :: l).
  { cbn [split_seps]. rewrite Hc. destruct (split_seps b) as [|x l]; eauto. }
  destruct E1 as (x & l & E1).
  assert (E2 : split_seps (44 :: c :: b) = (44 :: c :: x) :: l).
  { remember (c :: b) as cb. cbn [split_seps]. rewrite Hk. rewrite E1. reflexivity. }
  assert (S0 : forall y, sim_by (fun x => x) (y ++ c :: x) (y ++ 44 :: c :: x)).
  { intros y. split.
    - rewrite !spell_app. f_equal.
    - rewrite !ends_comma_app. destruct x; reflexivity. }
  assert (G : forall a, exists pre y, split_seps (a ++ c :: b) = pre ++ (y ++ c :: x) :: l /\
                            split_seps (a ++ 44 :: c :: b) = pre ++ (y ++ 44 :: c :: x) :: l).
  { clear -E1 E2. induction a as [|d a IH].
    - exists [], []. split; [exact E1|exact E2].
    - destruct IH as (pre & y & I1 & I2). cbn [app].
      remember (a ++ c :: b) as u1. remember (a ++ 44 :: c :: b) as u2. cbn [split_seps].
      destruct (split_or_trim_condition d).
      + exists ([] :: pre), y. rewrite I1, I2. split; reflexivity.
      + rewrite I1, I2. destruct pre as [|p pre]; cbn [app].
        * exists [], (d :: y). split; reflexivity.
        * exists ((d :: p) :: pre), y. split; reflexivity. }
  destruct (G a) as (pre & y & -> & ->). apply Forall2_app; [apply R|]. constructor; [apply S0|apply R].
Qed.

Lemma Forall2_flip_ {A} (R : A -> A -> Prop) (HR : forall a b, R a b -> R b a) l l' : Forall2 R l l' -> Forall2 R l' l.
Proof. induction 1; constructor; auto. Qed.
Lemma Forall2_trans_ {A} (R : A -> A -> Prop) (HR : forall a b c, R a b -> R b c -> R a c) l1 l2 :
  Forall2 R l1 l2 -> forall l3, Forall2 R l2 l3 -> Forall2 R l1 l3.
Proof. induction 1; intros l3 H3; inversion H3; subst; constructor; eauto. Qed.

Lemma comma_edit_sim t u : comma_edit t u -> text_sim (fun x => x) t u.
Proof.
  induction 1 as [t|a c b Hc|t u H IH|t u v H1 IH1 H2 IH2].
  - unfold text_sim. induction (split_seps t); constructor; auto using sim_refl.
  - apply split_seps_insert. apply not_sep_spec. exact Hc.
  - eapply Forall2_flip_; [|exact IH]. apply sim_sym.
  - eapply Forall2_trans_; [|exact IH1|exact IH2]. apply sim_trans.
Qed.

Lemma sim_id_norm t t' : sim_by (fun x => x) t t' -> sim t t'.
Proof.
  intros [H1 H2]. split; [|exact H2]. unfold spell_by in *. rewrite !map_id in H1. rewrite H1. reflexivity.
Qed.

Lemma text_sim_words nu (Hnu : good_norm nu) bm s s' ws : text_sim nu (txt s) (txt s') ->
  s_len s < 4294967296 -> s_len s' < 4294967296 -> decompose_all bm s = Ret ws ->
  exists ws', decompose_all bm s' = Ret ws' /\
    Forall2 (fun sp sp' => exists w w', span_slice sp s = Some w /\ span_slice sp' s' = Some w' /\
                                        sim_by nu (txt w) (txt w')) ws ws'.
Proof.
  intros Hs Hl Hl' Hw. exists (text_words (txt s')). unfold s_len in *.
  rewrite decompose_all_spec in Hw by (unfold U32MAX; lia). injection Hw as <-.
  split; [apply decompose_all_spec; unfold U32MAX; lia|].
  pose proof (text_words_cut (txt s)) as C. pose proof (text_words_cut (txt s')) as C'.
  apply (word_list_sim nu Hnu) in Hs. revert C C'. generalize (text_words (txt s)) (text_words (txt s')).
  induction Hs as [|w w' l l' Hw Hs IH]; intros ws ws' C C'.
  - inversion C; inversion C'; subst. constructor.
  - inversion C as [|sp ? wsr ? C1 C2]; inversion C' as [|sp' ? wsr' ? C1' C2']; subst. constructor.
    + apply cuts_slice in C1. apply cuts_slice in C1'. eexists _, _. split; [exact C1|]. split; [exact C1'|]. exact Hw.
    + apply IH; assumption.
Qed.

Theorem commas_irrelevant bm s s' ws : comma_edit (txt s) (txt s') ->
  s_len s < 4294967296 -> s_len s' < 4294967296 -> decompose_all bm s = Ret ws ->
  exists ws', decompose_all bm s' = Ret ws' /\
    Forall2 (fun sp sp' => exists w w', span_slice sp s = Some w /\ span_slice sp' s' = Some w' /\
                                        letters (txt w) = letters (txt w') /\ classify w = classify w') ws ws'.
Proof.
  intros H Hl Hl' Hw. apply comma_edit_sim in H.
  destruct (text_sim_words _ good_norm_id bm s s' ws H Hl Hl' Hw) as (ws' & E & F). exists ws'. split; [exact E|].
  eapply Forall2_impl; [|exact F]. intros sp sp' (w & w' & S1 & S2 & S3). exists w, w'. split; [exact S1|].
  split; [exact S2|]. split.
  - destruct S3 as [S3 _]. unfold spell_by in S3. rewrite !map_id in S3. exact S3.
  - destruct w as [p u], w' as [p' u']. apply classify_sim. apply sim_id_norm. exact S3.
Qed.

(** ** Apostrophe edits *)
Lemma apostrophe_cond c d : c = d \/ (In c (lit "h'") /\ In d (lit "h'")) ->
  split_or_trim_condition c = split_or_trim_condition d /\ norm c = norm d /\ is_comma c = is_comma d /\ clen c = clen d.
Proof.
  intros [->|[Hc Hd]]; [auto|]. cbn in Hc, Hd.
  destruct Hc as [<-|[<-|[]]], Hd as [<-|[<-|[]]]; repeat split; reflexivity.
Qed.

Definition hvar (c d : char) : Prop := c = d \/ (In c (lit "h'") /\ In d (lit "h'")).

Lemma hvar_sim t u : Forall2 hvar t u -> sim t u.
Proof.
  intros H. split.
  - unfold spell_by. induction H as [|c d t u Hc H IH]; [reflexivity|].
    destruct (apostrophe_cond c d Hc) as (_ & E & F & _). cbn [filter]. rewrite F.
    destruct (is_comma d); cbn [negb map]; congruence.
  - unfold ends_comma. induction H as [|c d t u Hc H IH]; [reflexivity|]. cbn [last].
    inversion H; subst; [|exact IH]. destruct (apostrophe_cond c d Hc) as (_ & _ & F & _). exact F.
Qed.

Lemma hvar_split t u : Forall2 hvar t u -> Forall2 (Forall2 hvar) (split_seps t) (split_seps u).
Proof.
  induction 1 as [|c d t u Hc H IH]; [repeat constructor|].
  destruct (apostrophe_cond c d Hc) as (E & _). cbn [split_seps]. rewrite E.
  destruct (split_or_trim_condition d); [constructor; [constructor|exact IH]|].
  inversion IH as [|x y l l' Hx Hl E1 E2].
  - constructor; [constructor; [exact Hc|constructor]|constructor].
  - constructor; [constructor; assumption|exact Hl].
Qed.

Lemma hvar_blen t u : Forall2 hvar t u -> blen t = blen u.
Proof.
  induction 1 as [|c d t u Hc H IH]; [reflexivity|]. rewrite !blen_cons, IH.
  destruct (apostrophe_cond c d Hc) as (_ & _ & _ & ->). reflexivity.
Qed.

Lemma reach_same t r r0 : reach t r -> reach t r0 -> weight norm r = weight norm r0 -> r = r0.
Proof.
  intros H H0 E. pose proof (reach_order norm t r r0 H H0) as A. pose proof (reach_order norm t r0 r H0 H) as B.
  rewrite E, Nat.ltb_irrefl in A. rewrite E, Nat.ltb_irrefl in B.
  apply N.ltb_ge in A. apply N.ltb_ge in B. assert (EB : blen r = blen r0) by lia.
  assert (P : exists m m0, m ++ r = m0 ++ r0).
  { assert (Q : forall r, reach t r -> exists m, t = m ++ r).
    { intros q [->|(m & c & -> & _)]; [exists []; reflexivity|]. exists (m ++ [c]). rewrite <- app_assoc. reflexivity. }
    destruct (Q r H) as (m & E1), (Q r0 H0) as (m0 & E2). exists m, m0. congruence. }
  destruct P as (m & m0 & P). revert m0 P. induction m as [|x m IH]; intros [|x0 m0] P; cbn in P.
  - exact P.
  - exfalso. rewrite P, blen_cons, blen_app in EB. pose proof (clen_pos x0). lia.
  - exfalso. rewrite <- P, blen_cons, blen_app in EB. pose proof (clen_pos x). lia.
  - injection P as -> P. eapply IH; exact P.
Qed.

Lemma hvar_app_inv a b u : Forall2 hvar (a ++ b) u -> exists a' b', u = a' ++ b' /\ Forall2 hvar a a' /\ Forall2 hvar b b'.
Proof.
  intros H. apply Forall2_app_inv_l in H as (a' & b' & Ha & Hb & ->). eauto.
Qed.

Lemma hvar_reach t u r r' : Forall2 hvar t u -> reach t r -> reach u r' -> sim r r' ->
  Forall2 hvar r r' /\ Forall2 hvar (before t r) (before u r').
Proof.
  intros H Ht Hu S.
  assert (P : exists m n n', t = m ++ r /\ u = n ++ n' /\ Forall2 hvar m n /\ Forall2 hvar r n' /\ reach u n').
  { destruct Ht as [->|(m & c & -> & Hc)].
    - exists [], [], u. repeat split; [constructor|exact H|left; reflexivity].
    - apply hvar_app_inv in H as (n & n' & -> & Hm & Hr). inversion Hr as [|? d ? n'' Hd Hn]; subst.
      exists (m ++ [c]), (n ++ [d]), n''. rewrite <- !app_assoc. repeat split.
      + apply Forall2_app; [exact Hm|constructor; [exact Hd|constructor]].
      + exact Hn.
      + right. exists n, d. split; [reflexivity|]. destruct (apostrophe_cond c d Hd) as (_ & _ & F & _). congruence. }
  destruct P as (m & n & n' & -> & E & Hm & Hr & Hn).
  assert (r' = n').
  { apply (reach_same u); [exact Hu|exact Hn|]. unfold weight. rewrite <- (proj1 S). 
    rewrite (proj1 (hvar_sim r n' Hr)). reflexivity. }
  subst n' u. rewrite !before_app. split; assumption.
Qed.

Lemma hvar_trim t u : Forall2 hvar t u -> Forall2 hvar (trim_end_commas t) (trim_end_commas u).
Proof.
  induction 1 as [|c d t u Hc H IH]; [constructor|]. cbn [trim_end_commas].
  destruct (apostrophe_cond c d Hc) as (_ & _ & F & _).
  inversion IH; [rewrite F; destruct (is_comma d); [constructor|constructor; [exact Hc|constructor]]|].
  constructor; [exact Hc|constructor; assumption].
Qed.

Lemma chunk_words_hvar t u : Forall2 hvar t u -> Forall2 (Forall2 hvar) (chunk_words t) (chunk_words u).
Proof.
  apply chunk_words_rel.
  - intros ? ? H. inversion H; subst; split; auto; discriminate.
  - constructor.
  - intros; apply Forall2_app; assumption.
  - intros t0 u0 H. pose proof (hvar_sim t0 u0 H) as S.
    pose proof (ev_sim norm good_norm_norm N_cmavo_minimal t0 u0 S) as A.
    pose proof (ev_sim norm good_norm_norm N_explicitly_stressed_brivla_minimal t0 u0 S) as B.
    unfold fall_off_ev.
    destruct (ev (Call N_cmavo_minimal) t0), (ev (Call N_cmavo_minimal) u0); try tauto.
    + destruct A as (A1 & A2 & A3). eapply hvar_reach; eassumption.
    + destruct (ev (Call N_explicitly_stressed_brivla_minimal) t0), (ev (Call N_explicitly_stressed_brivla_minimal) u0); try tauto.
      destruct B as (A1 & A2 & A3). eapply hvar_reach; eassumption.
  - intros ? ? H. apply (cmevla_check_sim norm good_norm_norm), hvar_sim, H.
  - apply hvar_trim.
  - intros ? ? H. apply (post_word_sim norm good_norm_norm), hvar_sim, H.
Qed.

Lemma text_words_hvar t u : Forall2 hvar t u -> text_words t = text_words u.
Proof.
  intros H. apply hvar_split in H. unfold text_words, chunks_of. generalize 0.
  induction H as [|c d l l' Hc H IH]; intros o; [reflexivity|].
  cbn [chunks_off flat_map fst snd]. rewrite (hvar_blen c d Hc), IH. f_equal.
  pose proof (chunk_words_hvar c d Hc) as W. clear -W. revert o.
  induction W as [|w w' l l' Hw W IH]; intros o; [reflexivity|]. cbn [spans_of].
  rewrite (hvar_blen w w' Hw), IH. reflexivity.
Qed.

Theorem apostrophes_irrelevant bm s s' ws : apostrophe_edit (txt s) (txt s') -> s_len s < 4294967296 ->
  decompose_all bm s = Ret ws ->
  decompose_all bm s' = Ret ws /\
  forall sp, In sp ws -> exists w w', span_slice sp s = Some w /\ span_slice sp s' = Some w' /\ classify w = classify w'.
Proof.
  intros H Hl Hw. change (Forall2 hvar (txt s) (txt s')) in H. unfold s_len in *.
  pose proof (hvar_blen _ _ H) as Eb.
  rewrite decompose_all_spec in Hw by (unfold U32MAX; lia). injection Hw as <-.
  split; [rewrite decompose_all_spec by (unfold U32MAX; lia); rewrite (text_words_hvar _ _ H); reflexivity|].
  assert (T : text_sim norm (txt s) (txt s')).
  { apply hvar_split in H. unfold text_sim. induction H; constructor; auto using hvar_sim. }
  destruct (text_sim_words norm good_norm_norm bm s s' (text_words (txt s)) T) as (ws' & E & F);
    [unfold s_len; lia|unfold s_len; lia|apply decompose_all_spec; unfold U32MAX; lia|].
  rewrite decompose_all_spec in E by (unfold U32MAX; lia). injection E as <-. rewrite <- (text_words_hvar _ _ H) in F.
  revert F. generalize (text_words (txt s)). intros l F sp Hin. induction l as [|x l IHl]; [destruct Hin|].
  inversion F as [|? ? ? ? (w & w' & S1 & S2 & S3) F']; subst. destruct Hin as [->|Hin]; [|exact (IHl F' Hin)].
  exists w, w'. split; [exact S1|]. split; [exact S2|]. destruct w, w'. apply classify_sim. exact S3.
Qed.

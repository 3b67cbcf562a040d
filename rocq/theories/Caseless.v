(** Caseless.v -- decomposition and the rules do not see the case of consonants
    and of y (compare the apostrophe edits in DecomposeSim.v). *)
From Verif Require Import Base Peg Rules RulesApi PegMeta RulesTotal PegChars PegSim Span Decompose
  DecomposeSpec DecomposeFacts History DecomposeMachine SpecText DecomposeThms Utf8 Selmaho ClassifyTable Classify ClassifyFacts DecomposeSim.
From Verif Require Import SpecCmavo SpecMorph SpecCase ClassifyThms MorphCons MorphThms SpanThms.
From Coq Require Import Lia Arith.

Definition low (c : char) : char := if mem_char c (lit "BCDFGJKLMNPRSTVXZY") then c + 32 else c.

Lemma good_low : good_norm low.
Proof.
  assert (T : forall c, mem_char c (lit "BCDFGJKLMNPRSTVXZY") = true -> exists p, In p twins /\ c = snd p /\ c + 32 = fst p).
  { intros c Hc. exists (c + 32, c). split; [|split; reflexivity].
    apply mem_char_In in Hc.
    assert (K : forallb (fun c => existsb (fun p => (fst p =? c + 32) && (snd p =? c)) twins) (lit "BCDFGJKLMNPRSTVXZY") = true) by reflexivity.
    rewrite forallb_forall in K. specialize (K c Hc). apply existsb_exists in K as ([x y] & Hp & K). cbn [fst snd] in K.
    apply andb_true_iff in K as [K1 K2]. apply N.eqb_eq in K1. apply N.eqb_eq in K2. subst. exact Hp. }
  intros c c'. unfold low. destruct (mem_char c _) eqn:E, (mem_char c' _) eqn:E'; intros H.
  - left. lia.
  - destruct (T c E) as (p & Hp & H1 & H2). right. exists p. split; [exact Hp|]. split; [auto|]. left. congruence.
  - destruct (T c' E') as (p & Hp & H1 & H2). right. exists p. split; [exact Hp|]. split; [left; congruence|auto].
  - left. exact H.
Qed.

Definition cvar (c d : char) : Prop := c = d \/ same_but_case c d.

Lemma low_lower c : In (lower c) (lit "bcdfgjklmnprstvxzy") -> low c = lower c.
Proof.
  unfold lower, low. destruct ((65 <=? c) && (c <=? 90)) eqn:E; intros H.
  - apply andb_true_iff in E as [E1 E2]. apply N.leb_le in E1. apply N.leb_le in E2.
    destruct (mem_char c _) eqn:M; [reflexivity|]. exfalso.
    assert (K : forallb (fun x => mem_char (x - 32) (lit "BCDFGJKLMNPRSTVXZY")) (lit "bcdfgjklmnprstvxzy") = true) by reflexivity.
    rewrite forallb_forall in K. specialize (K _ H). replace (c + 32 - 32) with c in K by lia. congruence.
  - assert (K : forallb (fun x => negb (mem_char x (lit "BCDFGJKLMNPRSTVXZY"))) (lit "bcdfgjklmnprstvxzy") = true) by reflexivity.
    rewrite forallb_forall in K. specialize (K _ H). apply negb_true_iff in K. rewrite K. reflexivity.
Qed.

Lemma case_low c d : cvar c d -> low c = low d.
Proof.
  intros [->|[H1 H2]]; [reflexivity|]. rewrite (low_lower c H2). rewrite H1 in H2 |- *. symmetry. apply low_lower, H2.
Qed.

Lemma case_cond c d : cvar c d ->
  split_or_trim_condition c = split_or_trim_condition d /\ low c = low d /\ is_comma c = is_comma d /\ clen c = clen d.
Proof.
  intros H. apply case_low in H. pose proof (good_low c d H) as T.
  split; [apply twin_fun; [repeat constructor|exact T]|]. split; [exact H|].
  split; apply twin_fun; try exact T; repeat constructor.
Qed.

Lemma cvar_sim t u : Forall2 cvar t u -> sim_by low t u.
Proof.
  intros H. split.
  - unfold spell_by. induction H as [|c d t u Hc H IH]; [reflexivity|].
    destruct (case_cond c d Hc) as (_ & E & F & _). cbn [filter]. rewrite F.
    destruct (is_comma d); cbn [negb map]; congruence.
  - unfold ends_comma. induction H as [|c d t u Hc H IH]; [reflexivity|]. cbn [last].
    inversion H; subst; [|exact IH]. destruct (case_cond c d Hc) as (_ & _ & F & _). exact F.
Qed.

Lemma cvar_split t u : Forall2 cvar t u -> Forall2 (Forall2 cvar) (split_seps t) (split_seps u).
Proof.
  induction 1 as [|c d t u Hc H IH]; [repeat constructor|].
  destruct (case_cond c d Hc) as (E & _). cbn [split_seps]. rewrite E.
  destruct (split_or_trim_condition d); [constructor; [constructor|exact IH]|].
  inversion IH as [|x y l l' Hx Hl E1 E2].
  - constructor; [constructor; [exact Hc|constructor]|constructor].
  - constructor; [constructor; assumption|exact Hl].
Qed.

Lemma cvar_blen t u : Forall2 cvar t u -> blen t = blen u.
Proof.
  induction 1 as [|c d t u Hc H IH]; [reflexivity|]. rewrite !blen_cons, IH.
  destruct (case_cond c d Hc) as (_ & _ & _ & ->). reflexivity.
Qed.

Lemma reach_same t r r0 : reach t r -> reach t r0 -> weight low r = weight low r0 -> r = r0.
Proof.
  intros H H0 E. pose proof (reach_order low t r r0 H H0) as A. pose proof (reach_order low t r0 r H0 H) as B.
  rewrite E, Nat.ltb_irrefl in A. rewrite E, Nat.ltb_irrefl in B.
  apply N.ltb_ge in A. apply N.ltb_ge in B. assert (EB : blen r = blen r0) by lia.
  assert (P : exists m m0, m ++ r = m0 ++ r0).
  { assert (Q : forall r, reach t r -> exists m, t = m ++ r).
    { intros q [->|(m & c & -> & _)]; [exists []; reflexivity|]. exists (m ++ [c]). rewrite <- app_assoc. reflexivity. }
    destruct (Q r H) as (m & E1), (Q r0 H0) as (m0 & E2). exists m, m0. congruence. }
  destruct P as (m & m0 & P). revert m0 P. induction m as [|x m IH]; intros [|x0 m0] P; cbn in P.
  - exact P.
  - exfalso. rewrite P, blen_cons, blen_app in EB. pose proof (clen_pos x0). lia.
  - exfalso. rewrite <- P, blen_cons, blen_app in EB. pose proof (clen_pos x). lia.
  - injection P as -> P. eapply IH; exact P.
Qed.

Lemma cvar_app_inv a b u : Forall2 cvar (a ++ b) u -> exists a' b', u = a' ++ b' /\ Forall2 cvar a a' /\ Forall2 cvar b b'.
Proof.
  intros H. apply Forall2_app_inv_l in H as (a' & b' & Ha & Hb & ->). eauto.
Qed.

Lemma cvar_reach t u r r' : Forall2 cvar t u -> reach t r -> reach u r' -> sim_by low r r' ->
  Forall2 cvar r r' /\ Forall2 cvar (before t r) (before u r').
Proof.
  intros H Ht Hu S.
  assert (P : exists m n n', t = m ++ r /\ u = n ++ n' /\ Forall2 cvar m n /\ Forall2 cvar r n' /\ reach u n').
  { destruct Ht as [->|(m & c & -> & Hc)].
    - exists [], [], u. repeat split; [constructor|exact H|left; reflexivity].
    - apply cvar_app_inv in H as (n & n' & -> & Hm & Hr). inversion Hr as [|? d ? n'' Hd Hn]; subst.
      exists (m ++ [c]), (n ++ [d]), n''. rewrite <- !app_assoc. repeat split.
      + apply Forall2_app; [exact Hm|constructor; [exact Hd|constructor]].
      + exact Hn.
      + right. exists n, d. split; [reflexivity|]. destruct (case_cond c d Hd) as (_ & _ & F & _). congruence. }
  destruct P as (m & n & n' & -> & E & Hm & Hr & Hn).
  assert (r' = n').
  { apply (reach_same u); [exact Hu|exact Hn|]. unfold weight. rewrite <- (proj1 S). 
    rewrite (proj1 (cvar_sim r n' Hr)). reflexivity. }
  subst n' u. rewrite !before_app. split; assumption.
Qed.

Lemma cvar_trim t u : Forall2 cvar t u -> Forall2 cvar (trim_end_commas t) (trim_end_commas u).
Proof.
  induction 1 as [|c d t u Hc H IH]; [constructor|]. cbn [trim_end_commas].
  destruct (case_cond c d Hc) as (_ & _ & F & _).
  inversion IH; [rewrite F; destruct (is_comma d); [constructor|constructor; [exact Hc|constructor]]|].
  constructor; [exact Hc|constructor; assumption].
Qed.

Lemma chunk_words_cvar t u : Forall2 cvar t u -> Forall2 (Forall2 cvar) (chunk_words t) (chunk_words u).
Proof.
  apply chunk_words_rel.
  - intros ? ? H. inversion H; subst; split; auto; discriminate.
  - constructor.
  - intros; apply Forall2_app; assumption.
  - intros t0 u0 H. pose proof (cvar_sim t0 u0 H) as S.
    pose proof (ev_sim low good_low N_cmavo_minimal t0 u0 S) as A.
    pose proof (ev_sim low good_low N_explicitly_stressed_brivla_minimal t0 u0 S) as B.
    unfold fall_off_ev.
    destruct (ev (Call N_cmavo_minimal) t0), (ev (Call N_cmavo_minimal) u0); try tauto.
    + destruct A as (A1 & A2 & A3). eapply cvar_reach; eassumption.
    + destruct (ev (Call N_explicitly_stressed_brivla_minimal) t0), (ev (Call N_explicitly_stressed_brivla_minimal) u0); try tauto.
      destruct B as (A1 & A2 & A3). eapply cvar_reach; eassumption.
  - intros ? ? H. apply (cmevla_check_sim low good_low), cvar_sim, H.
  - apply cvar_trim.
  - intros ? ? H. apply (post_word_sim low good_low), cvar_sim, H.
Qed.

Lemma text_words_cvar t u : Forall2 cvar t u -> text_words t = text_words u.
Proof.
  intros H. apply cvar_split in H. unfold text_words, chunks_of. generalize 0.
  induction H as [|c d l l' Hc H IH]; intros o; [reflexivity|].
  cbn [chunks_off flat_map fst snd]. rewrite (cvar_blen c d Hc), IH. f_equal.
  pose proof (chunk_words_cvar c d Hc) as W. clear -W. revert o.
  induction W as [|w w' l l' Hw W IH]; intros o; [reflexivity|]. cbn [spans_of].
  rewrite (cvar_blen w w' Hw), IH. reflexivity.
Qed.


Lemma case_edit_words bm s s' ws : case_edit (txt s) (txt s') -> s_len s < 4294967296 -> decompose_all bm s = Ret ws ->
  decompose_all bm s' = Ret ws.
Proof.
  intros H Hl Hw. change (Forall2 cvar (txt s) (txt s')) in H. unfold s_len in *. pose proof (cvar_blen _ _ H) as Eb.
  rewrite decompose_all_spec in Hw by (unfold U32MAX; lia). injection Hw as <-.
  rewrite decompose_all_spec by (unfold U32MAX; lia). rewrite (text_words_cvar _ _ H). reflexivity.
Qed.

(** the words are edited too *)
Lemma case_edit_slice s s' sp w : case_edit (txt s) (txt s') -> span_slice sp s = Some w ->
  exists w', span_slice sp s' = Some w' /\ case_edit (txt w) (txt w').
Proof.
  intros H Hw. apply slice_some in Hw as (a & b & E & Ep & H1 & H2).
  change (Forall2 cvar (txt s) (txt s')) in H. rewrite E in H.
  apply cvar_app_inv in H as (a' & r & E' & Ha & Hr). apply cvar_app_inv in Hr as (w' & b' & -> & Hw & Hb).
  exists (mkstr (ptr s' + sp_start sp) w'). split; [|exact Hw]. apply slice_some. exists a', b'. cbn [txt ptr].
  rewrite <- (cvar_blen _ _ Ha), <- (cvar_blen _ _ Hw). auto.
Qed.

Lemma general_class_case t t' : case_edit t t' -> general_class t = general_class t'.
Proof.
  intros H. apply cvar_sim in H. unfold general_class. rewrite !(fun x => accepts_all_sim low good_low x t t' H). reflexivity.
Qed.

Lemma case_ends t t' : case_edit t t' -> ends_comma t = ends_comma t'.
Proof. intros H. apply cvar_sim in H. apply H. Qed.

Lemma case_scalars t t' : case_edit t t' -> scalars t -> scalars t'.
Proof.
  intros H. induction H as [|c d t t' Hc H IH]; intros S; [constructor|]. constructor; [|apply IH; exact (Forall_inv_tail S)].
  rewrite <- (twin_fun is_scalar ltac:(repeat constructor) c d (good_low c d (case_low c d Hc))). exact (Forall_inv S).
Qed.

(** a listed spelling has the general class of an unknown cmavo, unless it ends in a comma or has a space *)
Lemma listed_general t s e : listed (spelling t) s e -> In (general_class t) [S_UnknownCmavo; S_AnyText] /\
  (no_sep t -> ends_comma t = false -> general_class t = S_UnknownCmavo).
Proof.
  intros H. apply listed_form in H as [H|H].
  - assert (U : ends_comma t = false -> general_class t = S_UnknownCmavo).
    { intros He. rewrite general_letters, He. apply cmavo_general; [apply letters_no_comma|]. apply cmavo_text_ap, H. }
    split; [|intros _; exact U]. destruct (ends_comma t) eqn:E; [|left; symmetry; apply U; reflexivity].
    right. left. rewrite general_letters, E. reflexivity.
  - assert (I : In 32 t).
    { assert (I : In 32 (spelling t)) by (rewrite H; left; reflexivity). unfold spelling in I. apply in_map_iff in I as (c & Hc & I).
      unfold letters in I. apply filter_In in I as [I _]. destruct (N.eqb_spec c 104); [discriminate Hc|subst; exact I]. }
    split.
    + right. left. assert (N : forall x, accepts_all x t = false).
      { intros x. destruct (accepts_all x t) eqn:E; [|reflexivity]. exfalso. apply accepts_all_chars in E.
        rewrite Forall_forall in E. specialize (E 32 I). unfold lojban_char in E. cbn in E. intuition discriminate. }
      unfold general_class. rewrite !N. reflexivity.
    + intros S _. exfalso. unfold no_sep in S. rewrite Forall_forall in S. apply (S 32 I). unfold is_sep. cbn. tauto.
Qed.

Lemma classify_cases w : scalars (txt w) ->
  (exists s e, listed (spelling (txt w)) s e /\ classify w = Ret (s, is_fundamentally_experimental s || e)) \/
  classify w = Ret (general_class (txt w), is_fundamentally_experimental (general_class (txt w))).
Proof.
  intros Hs. rewrite classify_spec by exact Hs. unfold class_of, entry. rewrite <- (spelling_spell (txt w)).
  generalize (general_class (txt w)) as g. intros g. destruct (blen (spelling (txt w)) <=? 16); [|right; reflexivity].
  destruct (table_lookup table_arms (spelling (txt w))) as [[s e]|] eqn:E; [|right; reflexivity].
  left. exists s, e. split; [apply lookup_listed, E|reflexivity].
Qed.

Definition lower_arm (a : pat * Selmaho * bool) : bool :=
  match a with
  | (Lits l, _, _) => forallb (fun x => forallb (fun c => negb ((65 <=? c) && (c <=? 90))) (lit x)) l
  | _ => true
  end.

Lemma arms_lower : forallb lower_arm table_arms = true.
Proof. vm_compute. reflexivity. Qed.

Lemma listed_lower w s e c : listed w s e -> In c w -> ~ capital c.
Proof.
  intros [(l & x & H & Hx & ->)|(_ & n & ->)] Hc K; unfold capital in K.
  - pose proof arms_lower as A. rewrite forallb_forall in A. specialize (A _ H). cbn [lower_arm] in A.
    rewrite forallb_forall in A. specialize (A x Hx). rewrite forallb_forall in A. specialize (A c Hc).
    apply negb_true_iff in A. apply andb_false_iff in A. rewrite !N.leb_gt in A. lia.
  - apply repeat_spec in Hc. lia.
Qed.

Lemma capital_spelling c t : In c t -> capital c -> In c (spelling t).
Proof.
  intros Hc K. unfold capital in K. unfold spelling. apply in_map_iff. exists c. split; [destruct (N.eqb_spec c 104); [lia|reflexivity]|].
  unfold letters. apply filter_In. split; [exact Hc|]. apply negb_true_iff, N.eqb_neq. lia.
Qed.

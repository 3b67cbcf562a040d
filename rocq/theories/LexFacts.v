(** LexFacts.v -- consequences of the specification SpecLex.v. *)
From Verif Require Import Base Peg Rules RulesApi PegMeta RulesTotal PegChars Span Utf8 Selmaho ClassifyTable Classify
  Decompose Lex DecomposeSpec DecomposeFacts History DecomposeMachine SpecText DecomposeThms DecomposeSuffix
  PegSim ClassifyFacts SpecLex SpanThms LexThms.
From Coq Require Import Lia Arith Sorting.Sorted.

Lemma same_prefix (a a' b b' : list char) : a ++ b = a' ++ b' -> blen a = blen a' -> a = a' /\ b = b'.
Proof.
  intros E L. pose proof (split_bytes_app a b) as H1. pose proof (split_bytes_app a' b') as H2.
  rewrite E, L in H1. rewrite H1 in H2. injection H2 as -> ->. auto.
Qed.

(** decomposition restarted at a word boundary *)
Theorem text_words_suffix t g w r l : t = g ++ w ++ r ->
  text_words t = mkspan (blen g) (blen g + blen w) :: l ->
  l = map (shift_span (blen g + blen w)) (text_words r).
Proof.
  intros Ht Hw. pose proof (next_rest 0 t ([], chunks_off (split_seps t) 0) (or_intror eq_refl)) as N0.
  pose proof (a_next_words ([], chunks_off (split_seps t) 0)) as W.
  assert (Ea : a_words ([], chunks_off (split_seps t) 0) = text_words t).
  { rewrite (fresh_words 0 t) by reflexivity. unfold words_at. rewrite <- (map_id (text_words t)) at 2.
    apply map_ext. intros [x y]. reflexivity. }
  rewrite Ea in W. destruct (a_next ([], chunks_off (split_seps t) 0)) as [[sp|] a'].
  - destruct N0 as (g' & w' & r' & l' & Ht' & Hsp & Hw' & _ & _ & Hr). rewrite N.add_0_l in *.
    rewrite Hw in Hw', W. injection Hw' as E1 E2 _. injection W as _ W. rewrite Ht in Ht'.
    destruct (same_prefix _ _ _ _ Ht' E1) as [<- Ht2].
    destruct (same_prefix _ _ _ _ Ht2 ltac:(lia)) as [<- <-].
    rewrite W, (rest_words _ _ _ Hr). reflexivity.
  - destruct N0 as [_ N0]. congruence.
Qed.

(** * Positions *)



(** [between lo hi l]: spans of [T], in order, from [lo] on and up to [hi] *)
Inductive ordered (T : list char) : N -> list span -> N -> Prop :=
| ord_nil lo hi : lo <= hi -> ordered T lo [] hi
| ord_cons lo sp l hi : slices T sp -> lo <= sp_start sp -> ordered T (sp_end sp) l hi -> ordered T lo (sp :: l) hi.

Lemma slices_le T sp : slices T sp -> sp_start sp <= sp_end sp.
Proof. intros (x & w & y & _ & ->). cbn. lia. Qed.

Lemma ordered_le T lo l hi : ordered T lo l hi -> lo <= hi.
Proof. induction 1 as [|lo sp l hi Hs Hlo H IH]; [assumption|]. apply slices_le in Hs. lia. Qed.

Lemma ordered_app T lo l1 mid l2 hi : ordered T lo l1 mid -> ordered T mid l2 hi -> ordered T lo (l1 ++ l2) hi.
Proof.
  induction 1 as [lo mid H|lo sp l mid Hs Hlo H IH]; intros H2; cbn [app].
  - destruct H2; constructor; auto; lia.
  - constructor; auto.
Qed.

Lemma ordered_weaken T lo l hi lo' : ordered T lo l hi -> lo' <= lo -> ordered T lo' l hi.
Proof. intros H E. destruct H; constructor; auto; lia. Qed.

Lemma ordered_sorted T lo l hi : ordered T lo l hi ->
  StronglySorted (fun v w => sp_end v <= sp_start w) l /\ Forall (slices T) l /\ Forall (fun w => lo <= sp_start w) l.
Proof.
  induction 1 as [|lo sp l hi Hs Hlo H (I1 & I2 & I3)]; [repeat constructor|].
  split; [constructor; assumption|]. split; [constructor; assumption|]. constructor; [exact Hlo|].
  eapply Forall_impl; [|exact I3]. intros w. apply slices_le in Hs. cbn. lia.
Qed.

Lemma chunk_pos T x r k c z : T = x ++ r -> read_chunk r k c z ->
  T = (x ++ k) ++ c ++ z /\ slices T (mkspan (blen x + blen k) (blen x + blen k + blen c)) /\ T = (x ++ k ++ c) ++ z.
Proof.
  intros -> (-> & _). rewrite <- !app_assoc. split; [reflexivity|]. split; [|reflexivity].
  exists (x ++ k), c, z. rewrite blen_app, <- !app_assoc. split; reflexivity.
Qed.

Lemma quote_pos T D o r qs e z : quote D o r qs e z -> forall x, T = x ++ r -> blen x = o ->
  exists y, r = y ++ z /\ blen (x ++ y) = sp_end e /\ slices T e /\
    ordered T o qs (sp_start e) /\ (exists c, span_slice e (mkstr 0 T) = Some (mkstr (sp_start e) c) /\ letters c = letters D).
Proof.
  induction 1 as [o r k c z Hrc Hl|o r k c z qs e z' Hrc Hl Hq IH]; intros x ET Ex; subst o.
  - destruct (chunk_pos T x r k c z ET Hrc) as (H1 & H2 & H3). exists (k ++ c).
    split; [destruct Hrc as (-> & _); rewrite app_assoc; reflexivity|]. cbn [sp_end sp_start]. rewrite !blen_app.
    split; [lia|]. split; [exact H2|]. split; [constructor; lia|]. exists c. split; [|exact Hl].
    apply slice_some. exists (x ++ k), z. cbn [txt ptr sp_start sp_end]. rewrite blen_app. repeat split; auto.
  - destruct (chunk_pos T x r k c z ET Hrc) as (H1 & H2 & H3).
    destruct (IH (x ++ k ++ c) H3 ltac:(rewrite !blen_app; lia)) as (y & Ey & Eb & He & Ho & Hc).
    exists (k ++ c ++ y). split; [destruct Hrc as (-> & _); rewrite Ey, <- !app_assoc; reflexivity|].
    split; [rewrite <- Eb, !blen_app; lia|]. split; [exact He|]. split; [|exact Hc].
    constructor; [exact H2|cbn [sp_start]; lia|exact Ho].
Qed.

Lemma ordered_last T : forall l lo q hi, ordered T lo (q :: l) hi -> sp_end (last (q :: l) q) <= hi.
Proof.
  intros l. assert (G : forall l lo q hi d, ordered T lo (q :: l) hi -> sp_end (last (q :: l) d) <= hi).
  { clear l. induction l as [|p l IH]; intros lo q hi d H; inversion H; subst.
    - cbn. eapply ordered_le; eassumption.
    - change (last (q :: p :: l) d) with (last (p :: l) d). eapply IH; eassumption. }
  intros lo q hi. apply G.
Qed.

Lemma ordered_lo_last T : forall l lo q hi, ordered T lo (q :: l) hi -> sp_start q <= sp_end (last (q :: l) q).
Proof.
  intros l lo q hi H. inversion H as [|? ? ? ? Hs Hlo Hr]; subst. apply slices_le in Hs as Hle. clear H Hs Hlo.
  rewrite last_cons. revert q hi Hr Hle. induction l as [|p l IH]; intros q hi Hr Hle; [exact Hle|].
  rewrite last_cons. inversion Hr as [|? ? ? ? Hs' Hlo' Hr']; subst. apply slices_le in Hs' as Hle'.
  specialize (IH p hi Hr' Hle'). lia.
Qed.

Lemma slices_join T a b : slices T a -> slices T b -> sp_start a <= sp_end b -> slices T (mkspan (sp_start a) (sp_end b)).
Proof.
  intros Ha Hb Hab. assert (B1 : boundary T (sp_start a)).
  { destruct Ha as (x & w & y & -> & ->). exists x, (w ++ y). auto. }
  assert (B2 : boundary T (sp_end b)).
  { destruct Hb as (x & w & y & -> & ->). exists (x ++ w), y. rewrite blen_app, app_assoc. auto. }
  destruct (span_slice (mkspan (sp_start a) (sp_end b)) (mkstr 0 T)) as [w|] eqn:E.
  - apply slice_some in E as (x & y & E1 & _ & E2 & E3). cbn [txt sp_start sp_end] in *.
    exists x, (txt w), y. split; [exact E1|]. congruence.
  - exfalso. apply slice_none in E. apply E. cbn [txt sp_start sp_end]. auto.
Qed.

Lemma quoted_text_pos T lo qs hi : ordered T lo qs hi -> ordered T lo (map tspan (tokens (quoted_text qs))) hi.
Proof.
  intros H. destruct qs as [|q qs]; cbn [quoted_text tokens flat_map app map].
  - constructor. eapply ordered_le; exact H.
  - pose proof (ordered_last T _ _ _ _ H) as Hl. pose proof (ordered_lo_last T _ _ _ _ H) as Hll.
    pose proof (ordered_sorted T _ _ _ H) as (_ & Hs & _). inversion H; subst.
    constructor; cbn [tspan sp_start sp_end]; [|assumption|constructor; exact Hl].
    apply slices_join; [assumption| |exact Hll].
    rewrite Forall_forall in Hs. apply Hs.
    destruct (exists_last (l := q :: qs) ltac:(discriminate)) as (l' & a & E). rewrite E.
    rewrite last_last. apply in_or_app. right. left. reflexivity.
Qed.

Lemma quoted_text_spans qs : flat_map item_spans (quoted_text qs) = map tspan (tokens (quoted_text qs)).
Proof. destruct qs; reflexivity. Qed.

Lemma parts_pos T isp D n dsp o r items k : parts isp D n dsp o r items k -> forall x, T = x ++ r -> blen x = o ->
  slices T isp -> slices T dsp ->
  exists mid, ordered T o (map tspan (tokens items)) mid /\ Forall (slices T) (flat_map item_spans items) /\
    match k with Some (o2, r2) => mid = o2 /\ exists x2, T = x2 ++ r2 /\ blen x2 = o2 | None => True end.
Proof.
  induction 1 as [dsp o r|n dsp o r qs e z items k Hq Hp IH|n dsp o r Hu]; intros x ET Ex Hi Hd.
  - exists o. split; [constructor; lia|]. split; [constructor|]. split; [reflexivity|]. eauto.
  - destruct (quote_pos T D o r qs e z Hq x ET Ex) as (y & Ey & Eb & He & Ho & _).
    destruct (IH (x ++ y) ltac:(rewrite ET, Ey, app_assoc; reflexivity) Eb Hi He) as (mid & I1 & I2 & I3).
    exists mid. split; [|split; [|exact I3]].
    + unfold tokens. rewrite flat_map_app, map_app. eapply ordered_app; [apply quoted_text_pos; exact Ho|].
      cbn [flat_map app map delimiter tspan]. constructor; [exact He|lia|exact I1].
    + rewrite flat_map_app. apply Forall_app. split.
      * rewrite quoted_text_spans. apply quoted_text_pos in Ho. apply ordered_sorted in Ho. tauto.
      * cbn [flat_map delimiter item_spans app]. constructor; [exact He|exact I2].
  - exists o. split; [cbn; constructor; lia|]. split; [|exact I]. cbn. repeat constructor; assumption.
Qed.

Lemma word_token_pos T bm o t o' r tok x : word_token bm o t o' r tok -> T = x ++ t -> blen x = o ->
  slices T (tspan tok) /\ o <= sp_start (tspan tok) /\ sp_end (tspan tok) = o' /\ exists x', T = x' ++ r /\ blen x' = o'.
Proof.
  intros (g & w & sel & ex & (-> & _) & _ & -> & ->) -> <-. cbn [tspan sp_start sp_end].
  split; [exists (x ++ g), w, r; rewrite blen_app, <- app_assoc; split; reflexivity|]. split; [lia|]. split; [reflexivity|].
  exists (x ++ g ++ w). rewrite !blen_app, <- !app_assoc. split; [reflexivity|lia].
Qed.

Theorem lexes_pos T bm o t items : lexes bm o t items -> forall x, T = x ++ t -> blen x = o ->
  (exists hi, ordered T o (map tspan (tokens items)) hi) /\ Forall (slices T) (flat_map item_spans items).
Proof.
  induction 1 as [o t Hn|o t o' r tok items Hw _ _ _ Hl IH|o t o' r tok Hw _|o t o' r tok k c z items Hw _ Hrc Hl IH
    |o t o' r tok Hw _ _|o t o' r tok n Hw _ _|o t o' r tok n g D r' dsp Hw _ Hf -> _
    |o t o' r tok n g D r' dsp qs e z part o2 r2 items Hw _ Hf -> Hq Hp Hl IH
    |o t o' r tok n g D r' dsp qs e z part Hw _ Hf -> Hq Hp]; intros x ET Ex;
  try (destruct (word_token_pos T bm o t o' r tok x Hw ET Ex) as (P1 & P2 & P3 & x' & P4 & P5)).
  - split; [exists o; cbn; constructor; lia|constructor].
  - destruct (IH x' P4 P5) as ((hi & I1) & I2). split; [|cbn; constructor; assumption].
    exists hi. cbn. constructor; [exact P1|exact P2|rewrite P3; exact I1].
  - split; [|cbn; repeat constructor; assumption]. exists o'. cbn. constructor; [exact P1|exact P2|constructor; lia].
  - destruct (chunk_pos T x' r k c z P4 Hrc) as (C1 & C2 & C3).
    destruct (IH (x' ++ k ++ c) C3 ltac:(rewrite !blen_app; lia)) as ((hi & I1) & I2). rewrite P5 in C2. split.
    + exists hi. cbn. constructor; [exact P1|exact P2|]. constructor; [exact C2|cbn; lia|exact I1].
    + cbn. repeat constructor; assumption.
  - split; [|cbn; repeat constructor; assumption]. exists o'. cbn. constructor; [exact P1|exact P2|constructor; lia].
  - split; [exists o; cbn; constructor; lia|]. cbn. repeat constructor; assumption.
  - assert (Hd : slices T (mkspan (o' + blen g) (o' + blen g + blen D))).
    { destruct Hf as (-> & _). exists (x' ++ g), D, r'. rewrite P4, blen_app, <- P5, <- app_assoc. split; reflexivity. }
    split; [|cbn; repeat constructor; assumption]. exists o'. cbn. constructor; [exact P1|exact P2|constructor; lia].
  - destruct Hf as (-> & _). set (dsp := mkspan (o' + blen g) (o' + blen g + blen D)) in *.
    assert (Hd : slices T dsp).
    { exists (x' ++ g), D, r'. rewrite P4, blen_app, P5, <- app_assoc. split; reflexivity. }
    destruct (quote_pos T D _ r' qs e z Hq (x' ++ g ++ D)) as (y & Ey & Eb & He & Ho & _);
      [rewrite P4, <- !app_assoc; reflexivity|cbn [dsp sp_end]; rewrite !blen_app; lia|].
    destruct (parts_pos T _ D n e _ z part _ Hp ((x' ++ g ++ D) ++ y)) as (mid & J1 & J2 & J3 & x2 & J4 & J5);
      [rewrite P4, Ey, <- !app_assoc; reflexivity|exact Eb|exact P1|exact He|]. subst mid.
    destruct (IH x2 J4 J5) as ((hi & I1) & I2). split.
    + exists hi. cbn. constructor; [exact P1|exact P2|]. constructor; [exact Hd|cbn; lia|].
      unfold tokens. rewrite flat_map_app, map_app. eapply ordered_app; [apply quoted_text_pos; exact Ho|].
      cbn [flat_map delimiter app map tspan]. constructor; [exact He|lia|].
      rewrite flat_map_app, map_app. eapply ordered_app; [exact J1|exact I1].
    + cbn [flat_map item_spans app delimiter]. constructor; [exact P1|]. constructor; [exact Hd|].
      rewrite flat_map_app. apply Forall_app. split.
      * rewrite quoted_text_spans. apply quoted_text_pos in Ho. apply ordered_sorted in Ho. tauto.
      * cbn [flat_map delimiter item_spans app]. constructor; [exact He|]. rewrite flat_map_app. apply Forall_app. split; assumption.
  - destruct Hf as (-> & _). set (dsp := mkspan (o' + blen g) (o' + blen g + blen D)) in *.
    assert (Hd : slices T dsp).
    { exists (x' ++ g), D, r'. rewrite P4, blen_app, P5, <- app_assoc. split; reflexivity. }
    destruct (quote_pos T D _ r' qs e z Hq (x' ++ g ++ D)) as (y & Ey & Eb & He & Ho & _);
      [rewrite P4, <- !app_assoc; reflexivity|cbn [dsp sp_end]; rewrite !blen_app; lia|].
    destruct (parts_pos T _ D n e _ z part _ Hp ((x' ++ g ++ D) ++ y)) as (mid & J1 & J2 & _);
      [rewrite P4, Ey, <- !app_assoc; reflexivity|exact Eb|exact P1|exact He|]. split.
    + exists mid. cbn. constructor; [exact P1|exact P2|]. constructor; [exact Hd|cbn; lia|].
      unfold tokens. rewrite flat_map_app, map_app. eapply ordered_app; [apply quoted_text_pos; exact Ho|].
      cbn [flat_map delimiter app map tspan]. constructor; [exact He|lia|exact J1].
    + cbn [flat_map item_spans app delimiter]. constructor; [exact P1|]. constructor; [exact Hd|].
      rewrite flat_map_app. apply Forall_app. split.
      * rewrite quoted_text_spans. apply quoted_text_pos in Ho. apply ordered_sorted in Ho. tauto.
      * cbn [flat_map delimiter item_spans app]. constructor; [exact He|exact J2].
Qed.

(** * Items seen from a token on *)


Lemma technical_skip A B pre tok rest : Forall technical A -> ~ In (selmaho tok) [S_AnyText; S_ZoiDelimiter] ->
  A ++ B = pre ++ IOk tok :: rest -> exists pre', pre = A ++ pre' /\ B = pre' ++ IOk tok :: rest.
Proof.
  intros HA Ht. revert pre. induction HA as [|i A Hi HA IH]; intros pre E; cbn [app] in *.
  - eauto.
  - destruct pre as [|j pre]; cbn [app] in E; injection E as E1 E2.
    + subst i. destruct Hi as [Hi _]. contradiction.
    + subst j. destruct (IH pre E2) as (pre' & -> & ->). eauto.
Qed.

Lemma quoted_text_technical qs : Forall technical (quoted_text qs).
Proof. destruct qs; cbn; repeat constructor. Qed.

Lemma parts_technical isp D n dsp o r items k : parts isp D n dsp o r items k -> Forall technical items.
Proof.
  induction 1; [constructor| |repeat constructor].
  apply Forall_app. split; [apply quoted_text_technical|]. constructor; [cbn; tauto|assumption].
Qed.

Lemma word_split (tok0 : token) (A pre : list item) tok rest : IOk tok0 :: A = pre ++ IOk tok :: rest ->
  (pre = [] /\ tok0 = tok /\ A = rest) \/ exists pre', pre = IOk tok0 :: pre' /\ A = pre' ++ IOk tok :: rest.
Proof.
  destruct pre as [|j pre]; cbn [app]; intros [= E1 E2]; [left; auto|right]. subst. eauto.
Qed.

Lemma lexes_at T bm o t items : lexes bm o t items -> forall x pre tok rest, T = x ++ t -> blen x = o ->
  items = pre ++ IOk tok :: rest -> ~ In (selmaho tok) [S_AnyText; S_ZoiDelimiter] ->
  exists o1 t1 x1, T = x1 ++ t1 /\ blen x1 = o1 /\ lexes bm o1 t1 (IOk tok :: rest).
Proof.
  induction 1 as [o t Hn|o t o' r tok0 items Hw H1 H2 H3 Hl IH|o t o' r tok0 Hw H1|o t o' r tok0 k c z items Hw H1 Hrc Hl IH
    |o t o' r tok0 Hw H1 H2|o t o' r tok0 n Hw H1 H2|o t o' r tok0 n g D r' dsp Hw H1 Hf Hd H2
    |o t o' r tok0 n g D r' dsp qs e z part o2 r2 items Hw H1 Hf Hd Hq Hp Hl IH
    |o t o' r tok0 n g D r' dsp qs e z part Hw H1 Hf Hd Hq Hp]; intros x pre tok rest ET Ex E Ht;
  try (destruct (word_token_pos T bm o t o' r tok0 x Hw ET Ex) as (P1 & P2 & P3 & x' & P4 & P5)).
  - destruct pre; discriminate.
  - apply word_split in E as [(_ & <- & <-)|(pre' & _ & E)].
    + exists o, t, x. repeat split; auto. eapply lx_plain; eassumption.
    + eapply IH; eassumption.
  - apply word_split in E as [(_ & <- & <-)|(pre' & _ & E)]; [|destruct pre'; discriminate].
    exists o, t, x. repeat split; auto. eapply lx_faho; eassumption.
  - apply word_split in E as [(_ & <- & <-)|(pre' & _ & E)].
    + exists o, t, x. repeat split; auto. eapply lx_pause; eassumption.
    + apply (technical_skip [_]) in E as (pre2 & _ & E); [|repeat constructor|exact Ht].
      destruct (chunk_pos T x' r k c z P4 Hrc) as (C1 & C2 & C3).
      eapply (IH (x' ++ k ++ c)); [exact C3|rewrite !blen_app; lia|exact E|exact Ht].
  - apply word_split in E as [(_ & <- & <-)|(pre' & _ & E)]; [|destruct pre' as [|? [|]]; discriminate].
    exists o, t, x. repeat split; auto. eapply lx_pause_eof; eassumption.
  - destruct pre as [|? [|]]; discriminate.
  - apply word_split in E as [(_ & <- & <-)|(pre' & _ & E)]; [|destruct pre' as [|? [|]]; discriminate].
    exists o, t, x. repeat split; auto. eapply lx_unclosed; eassumption.
  - apply word_split in E as [(_ & <- & <-)|(pre' & _ & E)].
    + exists o, t, x. repeat split; auto. eapply lx_quote; eassumption.
    + replace (delimiter dsp :: quoted_text qs ++ delimiter e :: part ++ items)
        with ((delimiter dsp :: quoted_text qs ++ delimiter e :: part) ++ items) in E
        by (cbn [app]; rewrite <- app_assoc; reflexivity).
      apply technical_skip in E as (pre2 & _ & E); [| |exact Ht].
      2: { constructor; [cbn; tauto|]. apply Forall_app. split; [apply quoted_text_technical|].
           constructor; [cbn; tauto|]. eapply parts_technical; exact Hp. }
      destruct Hf as (-> & _). subst dsp.
      set (dsp := mkspan (o' + blen g) (o' + blen g + blen D)) in *.
      assert (Hd : slices T dsp).
      { exists (x' ++ g), D, r'. rewrite P4, blen_app, P5, <- app_assoc. split; reflexivity. }
      destruct (quote_pos T D _ r' qs e z Hq (x' ++ g ++ D)) as (y & Ey & Eb & He & Ho & _);
        [rewrite P4, <- !app_assoc; reflexivity|cbn [dsp sp_end]; rewrite !blen_app; lia|].
      destruct (parts_pos T _ D n e _ z part _ Hp ((x' ++ g ++ D) ++ y)) as (mid & J1 & J2 & J3 & x2 & J4 & J5);
        [rewrite P4, Ey, <- !app_assoc; reflexivity|exact Eb|exact P1|exact He|].
      eapply IH; eassumption.
  - apply word_split in E as [(_ & <- & <-)|(pre' & _ & E)].
    + exists o, t, x. repeat split; auto. eapply lx_quote_broken; eassumption.
    + exfalso.
      rewrite <- (app_nil_r (delimiter dsp :: _)) in E.
      apply technical_skip in E as (pre2 & _ & E); [destruct pre2; discriminate| |exact Ht].
      constructor; [cbn; tauto|]. apply Forall_app. split; [apply quoted_text_technical|].
      constructor; [cbn; tauto|]. eapply parts_technical; exact Hp.
Qed.

(** every token is a classified word or a technical token *)
Lemma lexes_tokens T bm o t items : lexes bm o t items -> forall x, T = x ++ t -> blen x = o ->
  forall i, In i items -> technical i \/ exists tok w, i = IOk tok /\ slices T (tspan tok) /\
     span_slice (tspan tok) (mkstr 0 T) = Some w /\ classify w = Ret (selmaho tok, experimental tok).
Proof.
  assert (W : forall o t o' r tok x, word_token bm o t o' r tok -> T = x ++ t -> blen x = o ->
     exists tok' w, IOk tok = IOk tok' /\ slices T (tspan tok') /\
     span_slice (tspan tok') (mkstr 0 T) = Some w /\ classify w = Ret (selmaho tok', experimental tok')).
  { intros o0 t0 o' r tok x Hw ET Ex. destruct (word_token_pos T bm o0 t0 o' r tok x Hw ET Ex) as (P1 & _).
    destruct Hw as (g & w & sel & ex & (-> & _) & Hc & -> & ->). exists (mktok ex sel (mkspan (o0 + blen g) (o0 + blen g + blen w))).
    exists (mkstr (o0 + blen g) w). split; [reflexivity|]. split; [exact P1|]. cbn [tspan selmaho experimental] in *. split.
    - apply slice_some. exists (x ++ g), r. cbn [txt ptr sp_start sp_end]. rewrite blen_app, ET, <- app_assoc. repeat split; lia.
    - rewrite <- Hc. apply classify_sim. split; reflexivity. }
  induction 1 as [o t Hn|o t o' r tok0 items Hw H1 H2 H3 Hl IH|o t o' r tok0 Hw H1|o t o' r tok0 k c z items Hw H1 Hrc Hl IH
    |o t o' r tok0 Hw H1 H2|o t o' r tok0 n Hw H1 H2|o t o' r tok0 n g D r' dsp Hw H1 Hf Hd H2
    |o t o' r tok0 n g D r' dsp qs e z part o2 r2 items Hw H1 Hf Hd Hq Hp Hl IH
    |o t o' r tok0 n g D r' dsp qs e z part Hw H1 Hf Hd Hq Hp]; intros x ET Ex i Hi;
  try (destruct (word_token_pos T bm o t o' r tok0 x Hw ET Ex) as (P1 & P2 & P3 & x' & P4 & P5)).
  - destruct Hi.
  - destruct Hi as [<-|Hi]; [right; eapply W; eassumption|]. eapply IH; eassumption.
  - destruct Hi as [<-|[]]. right; eapply W; eassumption.
  - destruct Hi as [<-|[<-|Hi]]; [right; eapply W; eassumption|left; cbn; tauto|].
    destruct (chunk_pos T x' r k c z P4 Hrc) as (C1 & C2 & C3).
    apply (IH (x' ++ k ++ c)); [exact C3|rewrite !blen_app; lia|exact Hi].
  - destruct Hi as [<-|[<-|[]]]; [right; eapply W; eassumption|left; exact I].
  - destruct Hi as [<-|[]]. left; exact I.
  - destruct Hi as [<-|[<-|[]]]; [right; eapply W; eassumption|left; exact I].
  - destruct Hi as [<-|Hi]; [right; eapply W; eassumption|].
    replace (delimiter dsp :: quoted_text qs ++ delimiter e :: part ++ items)
        with ((delimiter dsp :: quoted_text qs ++ delimiter e :: part) ++ items) in Hi
        by (cbn [app]; rewrite <- app_assoc; reflexivity).
    apply in_app_or in Hi as [Hi|Hi].
    + left. assert (F : Forall technical (delimiter dsp :: quoted_text qs ++ delimiter e :: part)).
      { constructor; [cbn; tauto|]. apply Forall_app. split; [apply quoted_text_technical|].
           constructor; [cbn; tauto|]. eapply parts_technical; exact Hp. }
      rewrite Forall_forall in F. apply F. exact Hi.
    + destruct Hf as (-> & _). subst dsp.
      set (dsp := mkspan (o' + blen g) (o' + blen g + blen D)) in *.
      assert (Hd : slices T dsp).
      { exists (x' ++ g), D, r'. rewrite P4, blen_app, P5, <- app_assoc. split; reflexivity. }
      destruct (quote_pos T D _ r' qs e z Hq (x' ++ g ++ D)) as (y & Ey & Eb & He & Ho & _);
        [rewrite P4, <- !app_assoc; reflexivity|cbn [dsp sp_end]; rewrite !blen_app; lia|].
      destruct (parts_pos T _ D n e _ z part _ Hp ((x' ++ g ++ D) ++ y)) as (mid & J1 & J2 & J3 & x2 & J4 & J5);
        [rewrite P4, Ey, <- !app_assoc; reflexivity|exact Eb|exact P1|exact He|].
      eapply IH; eassumption.
  - destruct Hi as [<-|Hi]; [right; eapply W; eassumption|].
    left. assert (F : Forall technical (delimiter dsp :: quoted_text qs ++ delimiter e :: part)).
    { constructor; [cbn; tauto|]. apply Forall_app. split; [apply quoted_text_technical|].
         constructor; [cbn; tauto|]. eapply parts_technical; exact Hp. }
    rewrite Forall_forall in F. apply F. exact Hi.
Qed.

(** * Errors come last *)
Definition is_tok (i : item) : Prop := match i with IOk _ => True | IErr _ => False end.

Lemma quoted_text_tok qs : Forall is_tok (quoted_text qs).
Proof. destruct qs; cbn; repeat constructor. Qed.

Definition err_last (l : list item) : Prop := forall pre e rest, l = pre ++ IErr e :: rest -> rest = [].

Lemma err_last_tok l : Forall is_tok l -> err_last l.
Proof.
  intros H pre e rest ->. apply Forall_app in H as [_ H]. inversion H; subst. contradiction.
Qed.

Lemma err_last_app a b : Forall is_tok a -> err_last b -> err_last (a ++ b).
Proof.
  intros Ha Hb. induction Ha as [|i a Hi Ha IH]; [exact Hb|]. intros pre e rest E. destruct pre as [|j pre]; cbn [app] in E; injection E as E1 E2.
  - subst i. contradiction.
  - eapply IH; exact E2.
Qed.

Lemma err_last_one e : err_last [IErr e].
Proof. intros pre e' rest E. destruct pre as [|a [|b pre]]; cbn in E; congruence. Qed.

Lemma parts_err isp D n dsp o r items k : parts isp D n dsp o r items k ->
  err_last items /\ (k <> None -> Forall is_tok items).
Proof.
  induction 1 as [dsp o r|n dsp o r qs e z items k Hq Hp [I1 I2]|n dsp o r Hu].
  - split; [apply err_last_tok; constructor|intros; constructor].
  - split.
    + apply err_last_app; [apply quoted_text_tok|]. apply (err_last_app [_]); [repeat constructor|exact I1].
    + intros Hk. apply Forall_app. split; [apply quoted_text_tok|]. constructor; [exact I|auto].
  - split; [apply err_last_one|congruence].
Qed.

Lemma lexes_err bm o t items : lexes bm o t items -> err_last items.
Proof.
  induction 1 as [o t Hn|o t o' r tok0 items Hw H1 H2 H3 Hl IH|o t o' r tok0 Hw H1|o t o' r tok0 k c z items Hw H1 Hrc Hl IH
    |o t o' r tok0 Hw H1 H2|o t o' r tok0 n Hw H1 H2|o t o' r tok0 n g D r' dsp Hw H1 Hf Hd H2
    |o t o' r tok0 n g D r' dsp qs e z part o2 r2 items Hw H1 Hf Hd Hq Hp Hl IH
    |o t o' r tok0 n g D r' dsp qs e z part Hw H1 Hf Hd Hq Hp].
  - apply err_last_tok; constructor.
  - apply (err_last_app [_]); [repeat constructor|exact IH].
  - apply err_last_tok; repeat constructor.
  - apply (err_last_app [_; _]); [repeat constructor|exact IH].
  - apply (err_last_app [_]); [repeat constructor|apply err_last_one].
  - apply err_last_one.
  - apply (err_last_app [_]); [repeat constructor|apply err_last_one].
  - apply (err_last_app [_; _]); [repeat constructor|]. apply err_last_app; [apply quoted_text_tok|].
    apply (err_last_app [_]); [repeat constructor|]. apply err_last_app; [|exact IH].
    apply parts_err in Hp as [_ Hp]. apply Hp. discriminate.
  - apply (err_last_app [_; _]); [repeat constructor|]. apply err_last_app; [apply quoted_text_tok|].
    apply (err_last_app [_]); [repeat constructor|]. apply parts_err in Hp as [Hp _]. exact Hp.
Qed.


Lemma error_ok_app T bm a pre e : error_ok T bm pre e -> error_ok T bm (a ++ pre) e.
Proof.
  destruct e; cbn [error_ok].
  - auto.
  - intros (pre' & tok & mid & x & D & r & -> & H). exists (a ++ pre'), tok, mid, x, D, r. rewrite app_assoc. auto.
  - intros (pre' & tok & x & r & -> & H). exists (a ++ pre'), tok, x, r. rewrite app_assoc. auto.
Qed.

Lemma err_split A B pre e rest : Forall is_tok A -> A ++ B = pre ++ IErr e :: rest ->
  exists pre', pre = A ++ pre' /\ B = pre' ++ IErr e :: rest.
Proof.
  intros HA. revert pre. induction HA as [|i A Hi HA IH]; intros pre E; cbn [app] in *; [eauto|].
  destruct pre as [|j pre]; cbn [app] in E; injection E as E1 E2.
  - subst i. contradiction.
  - subst j. destruct (IH pre E2) as (pre' & -> & ->). eauto.
Qed.

Lemma unclosed_letters D D' r : letters D = letters D' -> unclosed D r -> unclosed D' r.
Proof.
  intros E. induction 1 as [r H|r k c z H1 H2 H3 IH]; [apply unclosed_end; exact H|].
  eapply unclosed_more; [exact H1|congruence|exact IH].
Qed.

Lemma parts_error T isp D n dsp o r items k : parts isp D n dsp o r items k ->
  forall x xd Dd pre e rest, T = x ++ r -> blen x = o -> T = xd ++ Dd ++ r -> dsp = mkspan (blen xd) (blen xd + blen Dd) ->
  letters Dd = letters D -> sp_end isp <= blen xd -> items = pre ++ IErr e :: rest ->
  Forall technical pre /\ exists dsp' x' D' r', e = DelimitedQuoteUnclosed isp dsp' /\ T = x' ++ D' ++ r' /\
    dsp' = mkspan (blen x') (blen x' + blen D') /\ sp_end isp <= blen x' /\ unclosed D' r'.
Proof.
  induction 1 as [dsp o r|n dsp o r qs e z items k Hq Hp IH|n dsp o r Hu];
    intros x xd Dd pre er rest ET Ex ETd Edsp El Hle E.
  - destruct pre; discriminate.
  - replace (quoted_text qs ++ delimiter e :: items) with ((quoted_text qs ++ [delimiter e]) ++ items) in E
      by (rewrite <- app_assoc; reflexivity).
    apply err_split in E as (pre' & -> & E); [|apply Forall_app; split; [apply quoted_text_tok|repeat constructor]].
    destruct (quote_pos T D o r qs e z Hq x ET Ex) as (y & Ey & Eb & He & Ho & c & Hc & Hlc).
    apply slice_some in Hc as (a & b & Ea & _ & Ea1 & Ea2). cbn [txt] in *.
    assert (Eab : (a ++ c) ++ b = (x ++ y) ++ z) by (rewrite <- !app_assoc, <- Ea, ET, Ey; reflexivity).
    apply same_prefix in Eab as [Eac ->]; [|rewrite Eb, blen_app; exact Ea2].
    assert (Hlo : o <= sp_start e) by (apply ordered_le in Ho; exact Ho).
    destruct (IH (x ++ y) a c pre' er rest) as (I1 & I2).
    + rewrite <- app_assoc, <- Ey. exact ET.
    + exact Eb.
    + exact Ea.
    + destruct e as [e1 e2]. cbn [sp_start sp_end] in *. f_equal; lia.
    + exact Hlc.
    + assert (blen xd + blen Dd = blen x).
      { rewrite app_assoc in ETd. assert (E3 : x ++ r = (xd ++ Dd) ++ r) by congruence. apply app_inv_tail in E3.
        rewrite E3, blen_app. reflexivity. } lia.
    + exact E.
    + split; [|exact I2]. apply Forall_app. split; [|exact I1]. apply Forall_app. split; [apply quoted_text_technical|].
      constructor; [cbn; tauto|constructor].
  - destruct pre as [|? [|]]; try discriminate. injection E as <- _. split; [constructor|].
    exists dsp, xd, Dd, r. split; [reflexivity|]. split; [exact ETd|]. split; [exact Edsp|]. split; [exact Hle|].
    eapply unclosed_letters; [symmetry; exact El|exact Hu].
Qed.

Lemma lexes_error T bm o t items : lexes bm o t items -> forall x pre e rest, T = x ++ t -> blen x = o ->
  items = pre ++ IErr e :: rest -> error_ok T bm pre e.
Proof.
  induction 1 as [o t Hn|o t o' r tok0 items Hw H1 H2 H3 Hl IH|o t o' r tok0 Hw H1|o t o' r tok0 k c z items Hw H1 Hrc Hl IH
    |o t o' r tok0 Hw H1 H2|o t o' r tok0 n Hw H1 H2|o t o' r tok0 n g D r' dsp Hw H1 Hf Hd H2
    |o t o' r tok0 n g D r' dsp qs e z part o2 r2 items Hw H1 Hf Hd Hq Hp Hl IH
    |o t o' r tok0 n g D r' dsp qs e z part Hw H1 Hf Hd Hq Hp]; intros x pre er rest ET Ex E;
  try (destruct (word_token_pos T bm o t o' r tok0 x Hw ET Ex) as (P1 & P2 & P3 & x' & P4 & P5)).
  - destruct pre; discriminate.
  - apply (err_split [_]) in E as (pre' & -> & E); [|repeat constructor]. apply error_ok_app. eapply IH; eassumption.
  - destruct pre as [|? [|]]; discriminate.
  - apply (err_split [_; _]) in E as (pre' & -> & E); [|repeat constructor]. apply error_ok_app.
    destruct (chunk_pos T x' r k c z P4 Hrc) as (C1 & C2 & C3).
    eapply (IH (x' ++ k ++ c)); [exact C3|rewrite !blen_app; lia|exact E].
  - apply (err_split [_] [_]) in E as (pre' & -> & E); [|repeat constructor].
    destruct pre' as [|? [|]]; try discriminate. injection E as <- _. cbn [error_ok].
    exists [], tok0, x', r. rewrite P3. repeat split; auto.
  - destruct pre as [|? [|]]; try discriminate. injection E as <- _. cbn [error_ok].
    destruct Hw as (g & w & sel & ex & (-> & _) & Hc & -> & ->). cbn [tspan selmaho] in *.
    exists (x ++ g), w, r, sel, ex. rewrite blen_app, Ex, <- app_assoc. repeat split; auto. congruence.
  - apply (err_split [_] [_]) in E as (pre' & -> & E); [|repeat constructor].
    destruct pre' as [|? [|]]; try discriminate. injection E as <- _. cbn [error_ok].
    destruct Hf as (-> & _). exists [], tok0, [], (x' ++ g), D, r'. rewrite P4, P3, Hd, blen_app, P5, <- !app_assoc.
    repeat split; auto; [congruence|lia].
  - replace (IOk tok0 :: delimiter dsp :: quoted_text qs ++ delimiter e :: part ++ items)
        with ((IOk tok0 :: delimiter dsp :: quoted_text qs ++ delimiter e :: part) ++ items) in E
        by (cbn [app]; rewrite <- app_assoc; reflexivity).
    apply err_split in E as (pre' & -> & E).
    2: { constructor; [exact I|]. constructor; [exact I|]. apply Forall_app. split; [apply quoted_text_tok|].
         constructor; [exact I|]. apply parts_err in Hp as [_ Hp]. apply Hp. discriminate. }
    apply error_ok_app.
    destruct Hf as (-> & _). subst dsp. set (dsp := mkspan (o' + blen g) (o' + blen g + blen D)) in *.
    assert (Hd : slices T dsp).
    { exists (x' ++ g), D, r'. rewrite P4, blen_app, P5, <- app_assoc. split; reflexivity. }
    destruct (quote_pos T D _ r' qs e z Hq (x' ++ g ++ D)) as (y & Ey & Eb & He & Ho & _);
      [rewrite P4, <- !app_assoc; reflexivity|cbn [dsp sp_end]; rewrite !blen_app; lia|].
    destruct (parts_pos T _ D n e _ z part _ Hp ((x' ++ g ++ D) ++ y)) as (mid & J1 & J2 & J3 & x2 & J4 & J5);
      [rewrite P4, Ey, <- !app_assoc; reflexivity|exact Eb|exact P1|exact He|].
    eapply IH; eassumption.
  - replace (IOk tok0 :: delimiter dsp :: quoted_text qs ++ delimiter e :: part)
        with ((IOk tok0 :: delimiter dsp :: quoted_text qs ++ [delimiter e]) ++ part) in E
        by (cbn [app]; rewrite <- app_assoc; reflexivity).
    apply err_split in E as (pre' & -> & E).
    2: { constructor; [exact I|]. constructor; [exact I|]. apply Forall_app. split; [apply quoted_text_tok|repeat constructor]. }
    destruct Hf as (-> & _). subst dsp. set (dsp := mkspan (o' + blen g) (o' + blen g + blen D)) in *.
    destruct (quote_pos T D _ r' qs e z Hq (x' ++ g ++ D)) as (y & Ey & Eb & He & Ho & c & Hc & Hlc);
      [rewrite P4, <- !app_assoc; reflexivity|cbn [dsp sp_end]; rewrite !blen_app; lia|].
    apply slice_some in Hc as (a & b & Ea & _ & Ea1 & Ea2). cbn [txt] in *.
    assert (ETz : T = ((x' ++ g ++ D) ++ y) ++ z) by (rewrite P4, Ey, <- !app_assoc; reflexivity).
    assert (Eab : (a ++ c) ++ b = ((x' ++ g ++ D) ++ y) ++ z) by (rewrite <- app_assoc, <- Ea, <- ETz; reflexivity).
    apply same_prefix in Eab as [Eac ->]; [|rewrite Eb, blen_app; exact Ea2].
    apply ordered_le in Ho. cbn [dsp sp_end] in Ho.
    destruct (parts_error T _ D n e _ z part _ Hp ((x' ++ g ++ D) ++ y) a c pre' er rest ETz Eb Ea)
      as (Htech & dsp' & xx & D' & rr & -> & I2 & I3 & I4 & I5); [destruct e as [e1 e2]; cbn [sp_start sp_end] in *; f_equal; lia|exact Hlc|lia|exact E|].
    cbn [error_ok]. exists [], tok0. eexists. exists xx, D', rr. split; [reflexivity|]. split; [reflexivity|].
    split; [congruence|]. split; [|repeat split; assumption].
    constructor; [cbn; tauto|]. apply Forall_app. split; [|exact Htech].
    apply Forall_app. split; [apply quoted_text_technical|constructor; [cbn; tauto|constructor]].
Qed.

(** * Texts without quotes *)


Lemma lexes_plain T bm o t items : lexes bm o t items -> blen T <= U32MAX -> forall x ws1 ws2, T = x ++ t -> blen x = o ->
  words_at o t = ws1 ++ ws2 ->
  (forall sp w sel ex, In sp ws1 -> span_slice sp (mkstr 0 T) = Some w -> classify w = Ret (sel, ex) -> is_plain sel) ->
  exists i1 i2, items = i1 ++ i2 /\ Forall2 (token_of T) ws1 i1 /\ (ws2 = [] -> i2 = []).
Proof.
  intros H HT. induction H as [o t Hn|o t o' r tok0 items Hw H1 H2 H3 Hl IH|o t o' r tok0 Hw H1|o t o' r tok0 k c z items Hw H1 Hrc Hl IH
    |o t o' r tok0 Hw H1 H2|o t o' r tok0 n Hw H1 H2|o t o' r tok0 n g D r' dsp Hw H1 Hf Hd H2
    |o t o' r tok0 n g D r' dsp qs e z part o2 r2 items Hw H1 Hf Hd Hq Hp Hl IH
    |o t o' r tok0 n g D r' dsp qs e z part Hw H1 Hf Hd Hq Hp]; intros x ws1 ws2 ET Ex Hws Hplain;
  assert (Hsm : blen t <= U32MAX) by (rewrite ET, blen_app in HT; lia).
  { unfold no_word in Hn. rewrite decompose_all_spec in Hn by exact Hsm. cbn [txt] in Hn. injection Hn as Hn.
    unfold words_at in Hws. rewrite Hn in Hws. destruct ws1; [|discriminate]. exists [], []. auto. }
  all: destruct (word_token_pos T bm o t o' r tok0 x Hw ET Ex) as (P1 & P2 & P3 & x' & P4 & P5).
  all: destruct ws1 as [|sp ws1]; [exists []; eexists; split; [reflexivity|]; split; [constructor|];
         intros ->; exfalso; destruct Hw as (g0 & w0 & sel & ex & (Et & more & Hm) & _);
         rewrite decompose_all_spec in Hm by exact Hsm; cbn [txt] in Hm; injection Hm as Hm;
         unfold words_at in Hws; rewrite Hm in Hws; discriminate|].
  all: assert (Hfst : sp = tspan tok0 /\ words_at o' r = ws1 ++ ws2 /\
         exists w, span_slice sp (mkstr 0 T) = Some w /\ classify w = Ret (selmaho tok0, experimental tok0));
    [ destruct Hw as (g0 & w0 & sel & ex & (Et & more & Hm) & Hc & Htok & Ho');
      rewrite decompose_all_spec in Hm by exact Hsm; cbn [txt] in Hm; injection Hm as Hm;
      pose proof (text_words_suffix t g0 w0 r more Et Hm) as Hmore;
      unfold words_at in Hws; rewrite Hm in Hws; cbn [map app] in Hws; injection Hws as Hsp Hws;
      unfold shift_span in Hsp; cbn [sp_start sp_end] in Hsp; rewrite N.add_assoc in Hsp;
      split; [rewrite <- Hsp, Htok; reflexivity|];
      split; [unfold words_at; rewrite <- Hws, Hmore, shift_shift, Ho', N.add_assoc; reflexivity|];
      exists (mkstr (o + blen g0) w0); split;
      [ rewrite <- Hsp; apply slice_some; exists (x ++ g0), r; cbn [txt ptr sp_start sp_end];
        rewrite blen_app, ET, Et, <- app_assoc; repeat split; lia
      | rewrite Htok; cbn [selmaho experimental]; rewrite <- Hc; apply classify_sim; split; reflexivity ]
    | destruct Hfst as (Hsp & Hws' & w & Hw1 & Hw2) ].
  all: pose proof (Hplain sp w _ _ (or_introl eq_refl) Hw1 Hw2) as (Q1 & Q2 & Q3).
  2: contradiction.
  2, 3: contradiction.
  2-5: congruence.
  destruct (IH x' ws1 ws2 P4 P5 Hws') as (i1 & i2 & -> & I1 & I2).
  { intros sp' w' sel ex Hin. apply Hplain. right. exact Hin. }
  exists (IOk tok0 :: i1), i2. split; [reflexivity|]. split; [|exact I2]. constructor; [|exact I1].
  exists w, (selmaho tok0), (experimental tok0). split; [exact Hw1|]. split; [exact Hw2|].
  rewrite Hsp. destruct tok0; reflexivity.
Qed.

(** SpanThms.v -- lemmas for C31-C34. *)
From Verif Require Import Base Span PegMeta DecomposeFacts.
From Coq Require Import Lia ZifyN ZifyBool.

(** [boundary t n]: byte offset [n] is inside [t] and between two chars. *)
Definition boundary (t : list char) (n : N) : Prop := exists a b, t = a ++ b /\ blen a = n.

(** Spans made of u32 locations, not reversed. *)
Definition proper_span (s : span) : Prop := sp_start s <= sp_end s /\ sp_end s <= U32MAX.

Lemma slice_some s t w : span_slice s t = Some w <->
  exists a b, txt t = a ++ txt w ++ b /\ ptr w = ptr t + sp_start s /\
    blen a = sp_start s /\ blen a + blen (txt w) = sp_end s.
Proof.
  destruct t as [p t], s as [x y], w as [q w]. unfold span_slice, s_get. cbn [sp_start sp_end txt ptr]. split.
  - destruct (N.ltb_spec y x); [discriminate|].
    destruct (split_bytes t x) as [[a u]|] eqn:E; [|discriminate].
    destruct (split_bytes u (y - x)) as [[m b]|] eqn:E'; [|discriminate].
    intros [= <- <-]. apply split_bytes_inv in E as [-> E]. apply split_bytes_inv in E' as [-> E'].
    exists a, b. repeat split; lia.
  - intros (a & b & -> & -> & <- & <-).
    rewrite (proj2 (N.ltb_ge _ _)) by lia.
    rewrite split_bytes_app. replace (blen a + blen w - blen a) with (blen w) by lia.
    rewrite split_bytes_app. reflexivity.
Qed.

Lemma split_bytes_boundary t n : (exists a b, split_bytes t n = Some (a, b)) <-> boundary t n.
Proof.
  split.
  - intros (a & b & H). apply split_bytes_inv in H as [-> H]. exists a, b. auto.
  - intros (a & b & -> & <-). rewrite split_bytes_app. eauto.
Qed.

Lemma boundary_after a b n : blen a <= n -> (boundary (a ++ b) n <-> boundary b (n - blen a)).
Proof.
  intros H. split.
  - intros (x & y & E & Ex). revert x E Ex. revert n H. induction a as [|c a IH]; intros n H x E Ex.
    + cbn in *. subst. exists x, y. split; [reflexivity|lia].
    + rewrite blen_cons in *. destruct x as [|c' x].
      * exfalso. cbn in Ex. pose proof (clen_pos c). lia.
      * cbn in E. injection E as -> E. rewrite blen_cons in Ex.
        replace (n - (clen c' + blen a)) with (n - clen c' - blen a) by lia.
        apply (IH (n - clen c') ltac:(lia) x E). lia.
  - intros (x & y & -> & Ex). exists (a ++ x), y. rewrite <- app_assoc, blen_app. split; [reflexivity|lia].
Qed.

Lemma slice_none s t : span_slice s t = None <->
  ~ (sp_start s <= sp_end s /\ boundary (txt t) (sp_start s) /\ boundary (txt t) (sp_end s)).
Proof.
  destruct (span_slice s t) as [w|] eqn:E.
  - apply slice_some in E as (a & b & Et & _ & Ea & Eb). split; [discriminate|]. intros H. exfalso. apply H.
    split; [lia|]. rewrite Et. split; [exists a, (txt w ++ b); auto|].
    exists (a ++ txt w), b. rewrite <- app_assoc, blen_app. auto.
  - split; [|reflexivity]. intros _ (H1 & H2 & H3).
    destruct H2 as (a & u & Et & Ea). rewrite Et in H3. apply boundary_after in H3; [|lia].
    destruct H3 as (w & b & -> & Ew).
    assert (X : span_slice s t = Some (mkstr (ptr t + sp_start s) w)); [|congruence].
    apply slice_some. exists a, b. cbn [txt ptr]. repeat split; auto; lia.
Qed.

Lemma slice_parts bm s t w : span_slice s t = Some w ->
  exists x y, span_slice_before s t = Some x /\ span_slice_after s t = Some y /\
    txt x ++ txt w ++ txt y = txt t /\ span_len bm s = Ret (s_len w).
Proof.
  intros H. apply slice_some in H as (a & b & Et & Ep & Ea & Eb). destruct t as [p t]. cbn [txt ptr] in *. subst t.
  exists (mkstr p a), (mkstr (p + sp_end s) b). unfold span_slice_before, span_slice_after, s_get_to, s_get_from. cbn [txt ptr].
  rewrite <- Ea, split_bytes_app. split; [reflexivity|].
  rewrite <- Eb. rewrite app_assoc, <- blen_app, split_bytes_app. split; [reflexivity|].
  split; [rewrite <- app_assoc; reflexivity|].
  unfold span_len, u32_sub, s_len. rewrite (proj2 (N.leb_le _ _)) by lia. f_equal. lia.
Qed.

(** when [overlaps_with] panics (debug profile only) *)
Definition underflows (a b : span) : Prop :=
  (a = mkspan 0 0 /\ 0 < sp_start b) \/ (b = mkspan 0 0 /\ 0 < sp_start a).

Definition disjointness (a b : span) : bool := (sp_start a <? sp_end b) && (sp_start b <? sp_end a).

Lemma overlaps_spec bm a b : proper_span a -> proper_span b ->
  (bm = Debug /\ underflows a b /\ span_overlaps_with bm a b = Panic) \/
  ((bm = Release \/ ~ underflows a b) /\ span_overlaps_with bm a b = Ret (disjointness a b)).
Proof.
  destruct a as [a1 a2], b as [b1 b2]. unfold proper_span, underflows, disjointness, U32MAX. cbn [sp_start sp_end].
  intros Ha Hb.
  unfold span_overlaps_with, non_commutative_empty_check, non_commutative_helper, span_is_empty, span_contains, u32_sub.
  cbn [sp_start sp_end].
  assert (M : (4294967296 + 0 - 1) mod 4294967296 = 4294967295) by reflexivity.
  destruct ((a2 =? a1) && ((b2 =? a1) || (b1 =? a1)) || (b2 =? b1) && ((a2 =? b1) || (a1 =? b1))) eqn:E.
  - right. split.
    + right. intros [[[= -> ->] ?]|[[= -> ->] ?]]; lia.
    + f_equal. symmetry. lia.
  - destruct ((a1 <=? b1) && (b1 <? a2)) eqn:E1; cbn [obind].
    + right. split; [right; intros [[[= -> ->] ?]|[[= -> ->] ?]]; lia|]. f_equal. symmetry. lia.
    + destruct (N.leb_spec 1 b2).
      * cbn [obind]. destruct ((a1 <=? b2 - 1) && (b2 - 1 <? a2)) eqn:E2.
        -- right. split; [right; intros [[[= -> ->] ?]|[[= -> ->] ?]]; lia|]. f_equal. symmetry. lia.
        -- destruct ((b1 <=? a1) && (a1 <? b2)) eqn:E3.
           ++ right. split; [right; intros [[[= -> ->] ?]|[[= -> ->] ?]]; lia|]. f_equal. symmetry. lia.
           ++ destruct (N.leb_spec 1 a2).
              ** cbn [obind]. right. split; [right; intros [[[= -> ->] ?]|[[= -> ->] ?]]; lia|]. f_equal. lia.
              ** assert (a2 = 0) by lia. assert (a1 = 0) by lia. subst. destruct bm; cbn [obind].
                 --- left. split; [reflexivity|]. split; [left; split; [reflexivity|lia]|reflexivity].
                 --- right. split; [left; reflexivity|]. rewrite M. f_equal. lia.
      * assert (b2 = 0) by lia. assert (b1 = 0) by lia. subst. destruct bm; cbn [obind].
        -- left. split; [reflexivity|]. split; [right; split; [reflexivity|lia]|reflexivity].
        -- right. split; [left; reflexivity|]. rewrite M.
           destruct ((a1 <=? 4294967295) && (4294967295 <? a2)) eqn:E2; [lia|].
           destruct ((0 <=? a1) && (a1 <? 0)) eqn:E3; [lia|].
           destruct (N.leb_spec 1 a2).
           ++ cbn [obind]. f_equal. lia.
           ++ assert (a2 = 0) by lia. subst. cbn [obind]. rewrite M. f_equal. lia.
Qed.

Lemma overlaps_comm bm a b : proper_span a -> proper_span b -> span_overlaps_with bm a b = span_overlaps_with bm b a.
Proof.
  intros Ha Hb.
  assert (U : underflows a b <-> underflows b a) by (unfold underflows; tauto).
  assert (D : disjointness a b = disjointness b a) by (unfold disjointness; apply andb_comm).
  destruct (overlaps_spec bm a b Ha Hb) as [(H1 & H2 & ->)|[H1 ->]], (overlaps_spec bm b a Hb Ha) as [(K1 & K2 & ->)|[K1 ->]].
  - reflexivity.
  - exfalso. destruct K1 as [K1|K1]; [congruence|tauto].
  - exfalso. destruct H1 as [H1|H1]; [congruence|tauto].
  - congruence.
Qed.

Lemma overlaps_geometric bm a b : proper_span a -> proper_span b ->
  sp_start a < sp_end a -> sp_start b < sp_end b ->
  exists r, span_overlaps_with bm a b = Ret r /\
    (r = true <-> exists l, sp_start a <= l < sp_end a /\ sp_start b <= l < sp_end b).
Proof.
  intros Ha Hb Ea Eb. exists (disjointness a b). split.
  - destruct (overlaps_spec bm a b Ha Hb) as [(_ & [[-> ?]|[-> ?]] & _)|[_ H]]; [cbn in *; lia|cbn in *; lia|exact H].
  - unfold disjointness. split.
    + intros H. exists (N.max (sp_start a) (sp_start b)). lia.
    + intros (l & H1 & H2). lia.
Qed.

Lemma overlaps_empty bm a b : proper_span a -> proper_span b -> sp_start a = sp_end a -> ~ underflows a b ->
  exists r, span_overlaps_with bm a b = Ret r /\ (r = true <-> sp_start b < sp_start a < sp_end b).
Proof.
  intros Ha Hb Ea Hu. exists (disjointness a b). split.
  - destruct (overlaps_spec bm a b Ha Hb) as [(_ & H & _)|[_ H]]; [contradiction|exact H].
  - unfold disjointness. rewrite <- Ea. split; intros; lia.
Qed.

Lemma between_spec bm a b : proper_span a -> proper_span b -> (bm = Release \/ ~ underflows a b) ->
  span_between bm a b = Ret (if sp_end a <? sp_start b then Some (mkspan (sp_end a) (sp_start b)) else None).
Proof.
  intros Ha Hb Hu. unfold span_between.
  destruct (overlaps_spec bm a b Ha Hb) as [(-> & H & _)|[_ ->]]; [destruct Hu; [discriminate|contradiction]|].
  cbn [obind]. unfold disjointness. destruct Ha, Hb.
  destruct (N.ltb_spec (sp_end a) (sp_start b)).
  - replace ((sp_start a <? sp_end b) && (sp_start b <? sp_end a) || (sp_start b <=? sp_end a)) with false by lia. reflexivity.
  - replace ((sp_start a <? sp_end b) && (sp_start b <? sp_end a) || (sp_start b <=? sp_end a)) with true by lia. reflexivity.
Qed.

(** Props_Span.v -- properties C31-C34 of [Span].  [proper_span s]: u32
    locations with [start <= end]; [boundary t n]: byte offset [n] of [t] lies
    between two chars. *)
From Verif Require Import Base Span PegMeta SpanThms.
From Coq Require Import Lia.

(** C31 [slice] is [Some] of exactly the text between the offsets ... *)
Theorem C31_slice_some s t w : span_slice s t = Some w <->
  exists a b, txt t = a ++ txt w ++ b /\ ptr w = ptr t + sp_start s /\
    blen a = sp_start s /\ blen a + blen (txt w) = sp_end s.
Proof. exact (slice_some s t w). Qed.
Print Assumptions C31_slice_some.

(** ... and [None] exactly on reversed, out-of-range or off-boundary spans; *)
Theorem C31_slice_none s t : span_slice s t = None <->
  ~ (sp_start s <= sp_end s /\ boundary (txt t) (sp_start s) /\ boundary (txt t) (sp_end s)).
Proof. exact (slice_none s t). Qed.
Print Assumptions C31_slice_none.

(** the three slices rebuild the text, and [len] is the number of bytes. *)
Theorem C31_slice_parts bm s t w : span_slice s t = Some w ->
  exists x y, span_slice_before s t = Some x /\ span_slice_after s t = Some y /\
    txt x ++ txt w ++ txt y = txt t /\ span_len bm s = Ret (s_len w).
Proof. exact (slice_parts bm s t w). Qed.
Print Assumptions C31_slice_parts.

Example C31_example : span_slice (mkspan 1 4) (mkstr 9 [97; 233; 98; 99]) = Some (mkstr 10 [233; 98]) /\
  span_slice (mkspan 2 4) (mkstr 9 [97; 233; 98; 99]) = None.
Proof. split; reflexivity. Qed.

(** C32 "[overlaps_with] never panics" is false in debug builds: for the empty
    span at 0 and a span further right, [right.end - 1] underflows. *)
Theorem C32_overlaps_panics_refuted : exists a b, proper_span a /\ proper_span b /\
  span_overlaps_with Debug a b = Panic /\ span_overlaps_with Debug b a = Panic.
Proof.
  exists (mkspan 0 0), (mkspan 5 6). unfold proper_span, U32MAX. cbn [sp_start sp_end].
  repeat split; try lia; reflexivity.
Qed.
Print Assumptions C32_overlaps_panics_refuted.

(** Exactly then; in all other cases it says whether the interiors meet. *)
Theorem C32_overlaps_partial bm a b : proper_span a -> proper_span b ->
  (bm = Debug /\ ((a = mkspan 0 0 /\ 0 < sp_start b) \/ (b = mkspan 0 0 /\ 0 < sp_start a)) /\
     span_overlaps_with bm a b = Panic) \/
  exists r, span_overlaps_with bm a b = Ret r /\
    (r = true <-> sp_start a < sp_end b /\ sp_start b < sp_end a).
Proof.
  intros Ha Hb. destruct (overlaps_spec bm a b Ha Hb) as [H|[_ H]]; [left; exact H|right].
  eexists. split; [exact H|]. unfold disjointness. rewrite andb_true_iff, !N.ltb_lt. tauto.
Qed.
Print Assumptions C32_overlaps_partial.

Theorem C32_commutative bm a b : proper_span a -> proper_span b ->
  span_overlaps_with bm a b = span_overlaps_with bm b a.
Proof. exact (overlaps_comm bm a b). Qed.
Print Assumptions C32_commutative.

(** For non-empty spans: never a panic, and true exactly when they share a location. *)
Theorem C32_geometric bm a b : proper_span a -> proper_span b ->
  sp_start a < sp_end a -> sp_start b < sp_end b ->
  exists r, span_overlaps_with bm a b = Ret r /\
    (r = true <-> exists l, span_contains a l = true /\ span_contains b l = true).
Proof.
  intros Ha Hb Ea Eb. destruct (overlaps_geometric bm a b Ha Hb Ea Eb) as (r & H & Hr). exists r. split; [exact H|].
  rewrite Hr. unfold span_contains. split; intros (l & H1); exists l; rewrite ?andb_true_iff, ?N.leb_le, ?N.ltb_lt in *; tauto.
Qed.
Print Assumptions C32_geometric.

Example C32_example : proper_span (mkspan 10 30) /\ span_overlaps_with Debug (mkspan 10 30) (mkspan 20 40) = Ret true
  /\ span_overlaps_with Debug (mkspan 12 12) (mkspan 10 20) = Ret true
  /\ span_overlaps_with Debug (mkspan 10 10) (mkspan 10 20) = Ret false.
Proof. unfold proper_span, U32MAX; cbn; repeat split; lia. Qed.

(** C33 "[between] is [None] exactly when the spans overlap or are in the wrong
    order" is false: adjacent spans give [None] instead of the empty span
    between them. *)
Theorem C33_between_adjacent_refuted : exists a b, proper_span a /\ proper_span b /\
  sp_end a <= sp_start b /\ span_overlaps_with Debug a b = Ret false /\ span_between Debug a b = Ret None.
Proof. exists (mkspan 0 3), (mkspan 3 6). unfold proper_span, U32MAX; cbn; repeat split; lia. Qed.
Print Assumptions C33_between_adjacent_refuted.

(** It also panics in debug builds where [overlaps_with] does. *)
Theorem C33_between_panics_refuted : exists a b, proper_span a /\ proper_span b /\
  sp_end a < sp_start b /\ span_between Debug a b = Panic.
Proof. exists (mkspan 0 0), (mkspan 5 6). unfold proper_span, U32MAX; cbn; repeat split; lia. Qed.
Print Assumptions C33_between_panics_refuted.

(** What holds: [Some] of the region strictly between, exactly when that is not
    empty (outside the panicking case). *)
Theorem C33_between_partial bm a b : proper_span a -> proper_span b ->
  bm = Release \/ (0 < sp_end a /\ 0 < sp_end b) ->
  exists r, span_between bm a b = Ret r /\
    (forall m, r = Some m <-> sp_end a < sp_start b /\ m = mkspan (sp_end a) (sp_start b)).
Proof.
  intros Ha Hb Hu. eexists. split.
  - apply between_spec; [exact Ha|exact Hb|]. destruct Hu as [Hu|Hu]; [left; exact Hu|right].
    intros [[-> _]|[-> _]]; cbn in Hu; lia.
  - intros m. destruct (N.ltb_spec (sp_end a) (sp_start b)) as [H|H].
    + split; [intros [= <-]; auto|intros [_ ->]; reflexivity].
    + split; [discriminate|intros [K _]; lia].
Qed.
Print Assumptions C33_between_partial.

Example C33_example : span_between Debug (mkspan 0 3) (mkspan 6 9) = Ret (Some (mkspan 3 6)) /\ span_between Debug (mkspan 6 9) (mkspan 0 3) = Ret None /\ span_between Debug (mkspan 0 5) (mkspan 3 9) = Ret None.
Proof. repeat split. Qed.

(** C34 Constructors. *)
Theorem C34_new a b : (a <= b -> span_new a b = Ret (mkspan a b)) /\ (b < a -> span_new a b = Panic).
Proof.
  unfold span_new. split; intros H.
  - rewrite (proj2 (N.leb_le _ _)) by exact H. reflexivity.
  - rewrite (proj2 (N.leb_gt _ _)) by exact H. reflexivity.
Qed.
Print Assumptions C34_new.

Theorem C34_at bm a l : a + l <= U32MAX ->
  exists s, span_at bm a l = Ret s /\ proper_span s /\ sp_start s = a /\ span_len bm s = Ret l.
Proof.
  intros H. exists (mkspan a (a + l)). unfold span_at, u32_add, span_len, u32_sub, proper_span. cbn [sp_start sp_end].
  rewrite (proj2 (N.leb_le _ _)) by exact H. rewrite (proj2 (N.leb_le a _)) by lia.
  repeat split; try lia. f_equal. lia.
Qed.
Print Assumptions C34_at.

Theorem C34_at_overflow a l : U32MAX < a + l -> span_at Debug a l = Panic.
Proof. intros H. unfold span_at, u32_add. rewrite (proj2 (N.leb_gt _ _)) by exact H. reflexivity. Qed.
Print Assumptions C34_at_overflow.

(** [entire_slice] covers the text; it panics exactly on texts of 4 GiB or more. *)
Theorem C34_entire_slice t : (s_len t <= U32MAX -> exists s, span_entire_slice t = Ret s /\ span_slice s t = Some t) /\ (U32MAX < s_len t -> span_entire_slice t = Panic).
Proof.
  unfold span_entire_slice, to_u32. split; intros H.
  - rewrite (proj2 (N.leb_le _ _)) by exact H. eexists. split; [reflexivity|]. apply slice_some.
    exists [], []. cbn [app sp_start sp_end blen]. rewrite app_nil_r. unfold s_len. repeat split; lia.
  - rewrite (proj2 (N.leb_gt _ _)) by exact H. reflexivity.
Qed.
Print Assumptions C34_entire_slice.

(** [from_embedded_slice] inverts [slice]: the slice of a span tells the span. *)
Theorem C34_from_embedded_slice bm s t w : span_slice s t = Some w -> sp_end s <= U32MAX ->
  span_from_embedded_slice bm (ptr t) w = Ret s.
Proof.
  intros H Hl. apply slice_some in H as (a & b & _ & Ep & Ea & Eb).
  unfold span_from_embedded_slice, to_u32, u32_add, s_len. rewrite Ep.
  rewrite (proj2 (N.leb_le (ptr t) _)) by lia. replace (ptr t + sp_start s - ptr t) with (sp_start s) by lia.
  rewrite (proj2 (N.leb_le _ U32MAX)) by lia. cbn [obind].
  rewrite (proj2 (N.leb_le _ U32MAX)) by lia. cbn [obind].
  rewrite (proj2 (N.leb_le _ U32MAX)) by lia. cbn [obind].
  destruct s as [x y]. cbn [sp_start sp_end] in *. do 2 f_equal. lia.
Qed.
Print Assumptions C34_from_embedded_slice.

Example C34_example : span_at Debug 3 4 = Ret (mkspan 3 7) /\ span_at Release 4294967295 2 = Ret (mkspan 4294967295 1) /\ span_from_embedded_slice Debug 100 (mkstr 103 (lit "ab")) = Ret (mkspan 3 5).
Proof. repeat split. Qed.

(** CstPrint.v -- printing a tree of a lexed text cannot panic. *)
From Verif Require Import Base Span Selmaho Lex Cst CstRules CstApi CstMain CstMeta CstTotal SpecCst CstTree
  SpecLex PegMeta SpanThms DecomposeFacts.
From Coq Require Import Lia Arith Sorted.

Lemma tree_size_size v : tree_size v = size v.
Proof.
  induction v as [t|n s|n l IH|l IH] using val_ind'; try reflexivity; rewrite ?size_node, ?size_pass; cbn; f_equal;
    (induction IH as [|x l Hx Hl IHl]; cbn; [reflexivity|rewrite Hx, IHl; reflexivity]).
Qed.

(** * Tokens that can be sliced *)

Definition sliceable (s : str) (toks : list token) : Prop :=
  (forall t, In t toks -> exists w, span_slice (tspan t) s = Some w) /\
  StronglySorted (fun v w => sp_end v <= sp_start w) (map tspan toks).

Lemma slice_bounds sp s w : span_slice sp s = Some w ->
  sp_start sp <= sp_end sp /\ boundary (txt s) (sp_start sp) /\ boundary (txt s) (sp_end sp).
Proof.
  intros H. destruct (span_slice sp s) eqn:E; [|discriminate].
  apply slice_some in E as (a & b & Et & _ & Ea & Eb). split; [lia|]. rewrite Et.
  split; [exists a, (txt s0 ++ b); auto|]. exists (a ++ txt s0), b. rewrite <- app_assoc, blen_app. auto.
Qed.

Lemma bounds_slice a b s : a <= b -> boundary (txt s) a -> boundary (txt s) b -> exists w, span_slice (mkspan a b) s = Some w.
Proof.
  intros H1 H2 H3. destruct (span_slice (mkspan a b) s) as [w|] eqn:E; [eauto|].
  exfalso. apply (proj1 (slice_none _ _)) in E. apply E. auto.
Qed.

Lemma sliceable_part s p m q : sliceable s (p ++ m ++ q) -> sliceable s m.
Proof.
  intros [H1 H2]. split.
  - intros t Ht. apply H1, in_or_app. right. apply in_or_app. auto.
  - rewrite !map_app in H2. clear H1. induction (map tspan p) as [|x l IH]; cbn [app] in H2.
    + revert H2. induction (map tspan m) as [|y l IH]; [constructor|]. cbn [app]. intros H. inversion H; subst. constructor; [auto|].
      rewrite Forall_app in H3. tauto.
    + inversion H2; subst. auto.
Qed.

Lemma sliceable_extent s m t : sliceable s (t :: m) -> exists e w, last_end (t :: m) = Some e /\
  sp_start (tspan t) <= e /\ span_slice (mkspan (sp_start (tspan t)) e) s = Some w.
Proof.
  intros [H1 H2].
  assert (B : exists e, last_end (t :: m) = Some e /\ sp_start (tspan t) <= e /\ boundary (txt s) e).
  { clear - H1 H2. revert t H1 H2. induction m as [|u m IH]; intros t H1 H2.
    - destruct (H1 t (or_introl eq_refl)) as (w & Hw). apply slice_bounds in Hw as (B1 & B2 & B3). exists (sp_end (tspan t)). auto.
    - inversion H2 as [|? ? S F]; subst. destruct (IH u) as (e & E1 & E2 & E3).
      + intros x Hx. apply H1. right. exact Hx.
      + exact S.
      + exists e. split; [exact E1|]. split; [|exact E3]. cbn [map] in F. inversion F; subst.
        destruct (H1 t (or_introl eq_refl)) as (w & Hw). apply slice_bounds in Hw as (B1 & _). lia. }
  destruct B as (e & E1 & E2 & E3). destruct (H1 t (or_introl eq_refl)) as (w0 & Hw). apply slice_bounds in Hw as (_ & B2 & _).
  destruct (bounds_slice _ _ s E2 B2 E3) as (w & Hw). exists e, w. auto.
Qed.

(** * Lines *)

Lemma node_line_ok s toks v m level : covers v m -> (exists p q, toks = p ++ m ++ q) -> sliceable s toks ->
  exists l, node_line s level v = Ret l /\ line_for s toks (level, v) l.
Proof.
  intros Hc Hp Hs. pose proof (covers_loc v m Hc) as [El Er]. unfold node_line. rewrite El.
  assert (Hm : sliceable s m) by (destruct Hp as (p & q & ->); eapply sliceable_part; exact Hs).
  destruct m as [|t m]; cbn [first_start].
  - eexists. split; [reflexivity|]. repeat split. exists []. split; [apply covers_stands, Hc|]. split; [exact Hp|]. cbn. auto.
  - destruct (sliceable_extent s m t Hm) as (e & w & E1 & E2 & E3). rewrite Er, E1. cbn [unwrap obind].
    unfold span_new. rewrite (proj2 (N.leb_le _ _) E2). cbn [obind]. rewrite E3. cbn [unwrap obind].
    eexists. split; [reflexivity|]. repeat split. exists (t :: m). split; [apply covers_stands, Hc|]. split; [exact Hp|].
    rewrite E1. cbn [first_start]. exists w. auto.
Qed.

(** * Collapsing *)

Lemma collapse_tip n : forall v, (size v <= n)%nat -> exists w, collapse_node n v = Some w /\ tip v w /\ (size w <= size v)%nat.
Proof.
  induction n as [|n IH]; intros v Hv; [pose proof (size_pos v); lia|]. cbn [collapse_node].
  pose proof (child_size v) as Hc. destruct (children v) as [|c [|c' cs]] eqn:E.
  - exists v. split; [reflexivity|]. split; [|lia]. apply tip_here. rewrite E. discriminate.
  - specialize (Hc c (or_introl eq_refl)). destruct (IH c) as (w & H1 & H2 & H3); [lia|].
    exists w. split; [exact H1|]. split; [|lia]. eapply tip_down; eassumption.
  - exists v. split; [reflexivity|]. split; [|lia]. apply tip_here. rewrite E. discriminate.
Qed.

Lemma covers_only_child v c m : children v = [c] -> covers v m -> covers c m.
Proof.
  intros E H. apply covers_children in H. destruct v; try discriminate; destruct H as (ms & F & ->);
    rewrite E in F; inversion F as [|? ? ? ? H1 F1]; subst; inversion F1; subst; cbn; rewrite app_nil_r; exact H1.
Qed.

Lemma tip_covers v w : tip v w -> forall m, covers v m -> covers w m.
Proof. induction 1; intros m Hm; [exact Hm|]. apply IHtip. eapply covers_only_child; eassumption. Qed.

Section Kids.
Context (f : val -> option (outcome (list line))).
Fixpoint kids (l : list val) : option (outcome (list line)) :=
  match l with
  | [] => Some (Ret [])
  | c :: l' => match f c, kids l' with
               | Some a, Some b => Some (let! x := a in let! y := b in Ret (x ++ y))
               | _, _ => None
               end
  end.
End Kids.

Lemma print_node_S n collapse input level v0 : print_node (S n) collapse input level v0 =
  match (if collapse then collapse_node (S n) v0 else Some v0) with
  | None => None
  | Some v => match kids (print_node n collapse input (level + 2)) (children v) with
              | Some ks => Some (let! h := node_line input level v in let! k := ks in Ret (h :: k))
              | None => None
              end
  end.
Proof. reflexivity. Qed.

Lemma print_node_ok s toks collapse (Hs : sliceable s toks) n : forall level v0 m, (size v0 <= n)%nat ->
  covers v0 m -> (exists p q, toks = p ++ m ++ q) ->
  exists lines nodes, print_node n collapse s level v0 = Some (Ret lines) /\ prints collapse level v0 nodes /\
    Forall2 (line_for s toks) nodes lines.
Proof.
  induction n as [|n IH]; intros level v0 m Hn Hc Hp; [pose proof (size_pos v0); lia|].
  rewrite print_node_S.
  assert (Hv : exists v, (if collapse then collapse_node (S n) v0 else Some v0) = Some v /\
            (if collapse then tip v0 v else v = v0) /\ (size v <= size v0)%nat /\ covers v m).
  { destruct collapse.
    - destruct (collapse_tip (S n) v0 Hn) as (w & H1 & H2 & H3). exists w. repeat split; auto. eapply tip_covers; eassumption.
    - exists v0. auto. }
  destruct Hv as (v & -> & Htip & Hsz & Hcv).
  destruct (node_line_ok s toks v m level Hcv Hp Hs) as (h & Eh & Lh). rewrite Eh. cbn [obind].
  assert (K : exists ks lss, kids (print_node n collapse s (level + 2)) (children v) = Some (Ret ks) /\
             Forall2 (prints collapse (level + 2)) (children v) lss /\ Forall2 (line_for s toks) (List.concat lss) ks).
  { assert (Hcs : forall c, In c (children v) -> (size c <= n)%nat).
    { intros c Hc'. apply child_size in Hc'. lia. }
    assert (Hms : exists ms, Forall2 covers (children v) ms /\ exists p q, toks = p ++ List.concat ms ++ q).
    { apply covers_children in Hcv. destruct v; cbn [children].
      - exists []. split; [constructor|]. exists toks, []. cbn. rewrite !app_nil_r. reflexivity.
      - exists []. split; [constructor|]. exists toks, []. cbn. rewrite !app_nil_r. reflexivity.
      - destruct Hcv as (ms & F & ->). eauto.
      - destruct Hcv as (ms & F & ->). eauto. }
    destruct Hms as (ms & F & Hpp). clear Hcv Htip Hsz Eh Lh h. revert ms F Hpp Hcs.
    induction (children v) as [|c cs IHc]; intros ms F Hpp Hcs.
    - exists [], []. repeat split; constructor.
    - inversion F as [|? m1 ? ms' Hm1 F']; subst. destruct Hpp as (p & q & Hpq). cbn [List.concat] in Hpq.
      destruct (IH (level + 2) c m1) as (l1 & n1 & P1 & P2 & P3).
      + apply Hcs. left. reflexivity.
      + exact Hm1.
      + exists p, (List.concat ms' ++ q). rewrite Hpq, <- app_assoc. reflexivity.
      + destruct (IHc ms' F') as (ks & lss & K1 & K2 & K3).
        * exists (p ++ m1), q. rewrite Hpq, <- !app_assoc. reflexivity.
        * intros. apply Hcs. right. assumption.
        * exists (l1 ++ ks), (n1 :: lss). cbn [kids]. rewrite P1, K1. split; [reflexivity|].
          split; [constructor; assumption|]. cbn [List.concat]. apply Forall2_app; assumption. }
  destruct K as (ks & lss & K1 & K2 & K3). rewrite K1. cbn [obind].
  exists (h :: ks), ((level, v) :: List.concat lss). split; [reflexivity|]. split.
  - econstructor; eassumption.
  - constructor; assumption.
Qed.

(** the printed leaves are the tokens, collapsed or not *)
Lemma prints_ind_strong (collapse : bool) (P : N -> val -> list (N * val) -> Prop) :
  (forall level v0 v ls, (if collapse return Prop then tip v0 v else v = v0) ->
     Forall2 (P (level + 2)) (children v) ls -> P level v0 ((level, v) :: List.concat ls)) ->
  forall level v0 l, prints collapse level v0 l -> P level v0 l.
Proof.
  intros HP level v0. remember (size v0) as n eqn:E. revert level v0 E. induction n as [n IH] using lt_wf_ind. intros level v0 -> l H.
  inversion H as [? ? v ls Ht F]; subst. eapply HP; [exact Ht|].
  assert (Hsz : (size v <= size v0)%nat).
  { destruct collapse; [|subst; lia]. clear - Ht. induction Ht; [lia|]. assert (size c < size v)%nat by (apply child_size; rewrite H; left; reflexivity). lia. }
  assert (Hc : forall c, In c (children v) -> (size c < size v0)%nat) by (intros c Hc; apply child_size in Hc; lia).
  revert Hc. clear H Ht Hsz. induction F as [|c l0 cs ls0 H F IHF]; intros Hc; constructor.
  - eapply IH; [apply Hc; left; reflexivity|reflexivity|exact H].
  - apply IHF. intros. apply Hc. right. assumption.
Qed.

Lemma prints_leaves collapse level v0 l : prints collapse level v0 l -> forall m, covers v0 m ->
  Forall2 shows (filter is_leaf (map snd l)) m.
Proof.
  revert level v0 l. apply (prints_ind_strong collapse (fun _ v0 l => forall m, covers v0 m -> Forall2 shows (filter is_leaf (map snd l)) m)).
  intros level v0 v ls Ht F m H0.
  assert (H : covers v m) by (destruct collapse; [eapply tip_covers; eassumption|subst; exact H0]).
  assert (HN : (forall t, ~ shows v t) -> (exists ms, Forall2 covers (children v) ms /\ m = List.concat ms) ->
               Forall2 shows (filter is_leaf (map snd ((level, v) :: List.concat ls))) m).
  { intros Hn (ms & Fc & Em). cbn [map snd filter]. rewrite (is_leaf_node v m H Hn). subst m. clear H H0. revert ms Fc.
    induction F as [|c x cs ls Hc F IH]; intros ms Fc; inversion Fc as [|? m1 ? ms' Hm1 Fc']; subst; cbn [List.concat]; [constructor|].
    rewrite map_app, filter_app. apply Forall2_app; [apply Hc; exact Hm1|apply IH; exact Fc']. }
  apply covers_children in H as H'. destruct v as [t|nm s|nm fs|fs].
  - cbn [children] in F. inversion F; subst. destruct H' as (t0 & -> & Hs). cbn [List.concat map snd filter].
    rewrite (is_leaf_shows _ _ Hs). constructor; [exact Hs|constructor].
  - cbn [children] in F. inversion F; subst. destruct H' as (t0 & -> & Hs). cbn [List.concat map snd filter].
    rewrite (is_leaf_shows _ _ Hs). constructor; [exact Hs|constructor].
  - apply HN; [apply not_shows_node|exact H'].
  - apply HN; [apply not_shows_pass|exact H'].
Qed.

Lemma prints_exists collapse v : exists l, prints collapse 0 v l.
Proof.
  generalize 0. remember (size v) as n eqn:E. revert v E. induction n as [n IH] using lt_wf_ind. intros v -> level.
  assert (Hv : exists u, (if collapse then tip v u else u = v) /\ (size u <= size v)%nat).
  { destruct collapse; [|exists v; auto]. destruct (collapse_tip (size v) v (le_n _)) as (w & _ & H2 & H3). eauto. }
  destruct Hv as (u & Hu & Hsz).
  assert (H : exists ls, Forall2 (prints collapse (level + 2)) (children u) ls).
  { assert (Hc : forall c, In c (children u) -> exists l, prints collapse (level + 2) c l).
    { intros c Hc. apply child_size in Hc. eapply IH; [|reflexivity]. lia. }
    induction (children u) as [|c cs IHc]; [exists []; constructor|].
    destruct (Hc c (or_introl eq_refl)) as (l & Hl). destruct IHc as (ls & Hls); [intros; apply Hc; right; assumption|].
    exists (l :: ls). constructor; assumption. }
  destruct H as (ls & H). eexists. econstructor; eassumption.
Qed.

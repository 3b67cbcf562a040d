(** CstAuto.v -- a certified regular over-approximation of the grammar: for a
    finite automaton reading token classes, the states it can be in after what a
    rule can consume, if that is at least one token.  The tables are computed; the kernel checks them. *)
From Verif Require Import Base Span Selmaho Lex Cst CstRules CstApi CstMeta CstTotal SpecCst CstTree CstBalance.
From Coq Require Import Lia Arith.

Section Auto.
Context (step : nat -> Selmaho -> nat) (n : nat).

Definition reads (q : nat) (m : list token) : nat := fold_left (fun q t => step q (selmaho t)) m q.

Lemma reads_app q a b : reads q (a ++ b) = reads (reads q a) b.
Proof. unfold reads. apply fold_left_app. Qed.

(** a set of states; [None]: all *)
Definition states := option (list nat).
Definition inn (q : nat) (s : states) : Prop := match s with None => True | Some l => In q l end.
Definition innb (q : nat) (s : states) : bool := match s with None => true | Some l => existsb (Nat.eqb q) l end.
Definition union (a b : states) : states :=
  match a, b with Some a, Some b => Some (nodup Nat.eq_dec (a ++ b)) | _, _ => None end.
Definition bind (a : states) (f : nat -> states) : states :=
  match a with None => None | Some l => fold_right (fun q acc => union (f q) acc) (Some []) l end.
Definition subb (a b : states) : bool :=
  match a, b with _, None => true | Some a, Some b => forallb (fun q => existsb (Nat.eqb q) b) a | None, Some _ => false end.

Lemma innb_inn q s : innb q s = true <-> inn q s.
Proof.
  destruct s as [l|]; cbn; [|tauto]. rewrite existsb_exists. split.
  - intros (x & H & E). apply Nat.eqb_eq in E. subst. exact H.
  - intros H. exists q. split; [exact H|]. apply Nat.eqb_refl.
Qed.
Lemma union_l q a b : inn q a -> inn q (union a b).
Proof. destruct a, b; cbn; auto. rewrite nodup_In, in_app_iff. auto. Qed.
Lemma union_r q a b : inn q b -> inn q (union a b).
Proof. destruct a, b; cbn; auto. rewrite nodup_In, in_app_iff. auto. Qed.
Lemma bind_inn q r a f : inn q a -> inn r (f q) -> inn r (bind a f).
Proof.
  destruct a as [l|]; cbn; [|auto]. induction l as [|x l IH]; cbn; [tauto|]. intros [->|H] Hr.
  - apply union_l, Hr.
  - apply union_r, IH; assumption.
Qed.
Lemma subb_inn a b q : subb a b = true -> inn q a -> inn q b.
Proof.
  destruct a as [a|], b as [b|]; cbn; try tauto; try discriminate. rewrite forallb_forall. intros H Hq. apply (innb_inn q (Some b)), H, Hq.
Qed.

(** a relation: for every state the states after *)
Definition rel := list states.
Definition at_ (r : rel) (q : nat) : states := nth q r None.
Definition rows (f : nat -> states) : rel := map f (seq 0 n).

Lemma at_rows f q : (q < n)%nat -> at_ (rows f) q = f q.
Proof.
  intros H. unfold at_, rows. rewrite (nth_indep _ None (f 0%nat)) by (rewrite map_length, seq_length; exact H).
  rewrite map_nth, seq_nth; [reflexivity|exact H].
Qed.

(** states reachable by repeating [r] at least once from those in [s] *)
Fixpoint grow (k : nat) (r : rel) (s : states) : states :=
  match k with O => s | S k => let s' := bind s (at_ r) in if subb s' s then s else grow k r (union s s') end.
Definition plus (r : rel) (q : nat) : states :=
  let s0 := at_ r q in
  let s := grow n r s0 in
  if subb (bind s (at_ r)) s && subb s0 s then s else None.

Lemma plus_one r q x : inn x (at_ r q) -> inn x (plus r q).
Proof. unfold plus. destruct (_ && _) eqn:E; [|intros; exact I]. apply andb_true_iff in E as [_ E]. apply subb_inn, E. Qed.
Lemma plus_closed r q x y : inn x (plus r q) -> inn y (at_ r x) -> inn y (plus r q).
Proof.
  unfold plus. destruct (_ && _) eqn:E; [|auto]. apply andb_true_iff in E as [E _]. intros Hx Hy.
  eapply subb_inn; [exact E|]. eapply bind_inn; eassumption.
Qed.

Definition rnone : rel := rows (fun q => Some []).
Definition rseq (a b : rel) : rel := rows (fun q => bind (at_ a q) (at_ b)).
Definition ror (a b : rel) : rel := rows (fun q => union (at_ a q) (at_ b q)).
Definition rplus (a : rel) : rel := rows (plus a).
Definition rany : rel := rows (fun q => Some (nodup Nat.eq_dec (map (step q) all_selmaho))).
Definition rif (b : bool) (a : rel) : rel := if b then rnone else a.

Section Table.
Context (any : rel) (tbl : cnt -> rel).
Fixpoint post (e : gexp cnt) : rel :=
  match e with
  | GTok s => rows (fun q => Some [step q s])
  | GAny | GSpan _ => any
  | GCall x => tbl x
  | GNil => rnone
  | GCons a b => let p := post a in let r := post b in
      ror (rseq p r) (ror (rif (nonnull cnn b) p) (rif (nonnull cnn a) r))
  | GAlt a b => ror (post a) (post b)
  | GOpt a => post a
  | GLoop _ a | GMany1 a => rplus (post a)
  | GManyTill f g => let p := rplus (post f) in let r := post g in ror (ror r (rseq p r)) (rif (nonnull cnn g) p)
  | GNotThen _ a | GNotAfter a _ | GCut a | GConsume _ a | GPost _ a | GNode _ a => post a
  end.

Hypothesis HA : any = rany.
Hypothesis HR : forall x q, (q < n)%nat -> forall r, inn r (at_ (post (crule x)) q) -> inn r (at_ (tbl x) q).
Hypothesis HS : forall q s, (q < n)%nat -> (step q s < n)%nat.

Lemma reads_lt m : forall q, (q < n)%nat -> (reads q m < n)%nat.
Proof. induction m as [|t m IH]; intros q H; cbn; [exact H|]. apply IH, HS, H. Qed.

Lemma all_selmaho_in s : In s all_selmaho.
Proof. eapply nth_error_In, sel_index_nth. Qed.

Definition through (e : gexp cnt) (m : list token) : Prop :=
  m <> [] ->
  match e with
  | GLoop _ f =>
      (forall q, (q < n)%nat -> inn (reads q m) (plus (post f) q)) /\
      (forall q0 q, (q < n)%nat -> inn q (plus (post f) q0) -> inn (reads q m) (plus (post f) q0))
  | GManyTill f g =>
      (forall q, (q < n)%nat -> inn (reads q m) (at_ (post (GManyTill f g)) q)) /\
      (forall q0 q, (q < n)%nat -> (q0 < n)%nat -> inn q (plus (post f) q0) -> inn (reads q m) (at_ (post (GManyTill f g)) q0))
  | _ => forall q, (q < n)%nat -> inn (reads q m) (at_ (post e) q)
  end.

Lemma through_post e m : through e m -> m <> [] -> forall q, (q < n)%nat -> inn (reads q m) (at_ (post e) q).
Proof.
  intros H Hm q Hq. specialize (H Hm). destruct e; cbn [post] in *; auto.
  - unfold rplus. rewrite at_rows by exact Hq. apply (proj1 H); exact Hq.
  - apply (proj1 H). exact Hq.
Qed.

Lemma nullable e v : derives crule e [] v -> nonnull cnn e = false.
Proof.
  intros H. destruct (nonnull cnn e) eqn:E; [|reflexivity].
  exfalso. exact (nonnull_derives crule cnn cne cnd CST_D cst_ok e [] v H E eq_refl).
Qed.

Lemma through_cons e es m1 m2 v w : derives crule e m1 v -> derives crule es m2 w -> through e m1 -> through es m2 ->
  m1 ++ m2 <> [] -> forall q, (q < n)%nat -> inn (reads q (m1 ++ m2)) (at_ (post (GCons e es)) q).
Proof.
  intros D1 D2 H1 H2 Hm q Hq. cbn [post]. unfold ror. rewrite !at_rows by exact Hq.
  destruct m1 as [|t1 m1]; [|destruct m2 as [|t2 m2]].
  - apply union_r, union_r. rewrite (nullable _ _ D1). apply through_post; assumption.
  - apply union_r, union_l. rewrite (nullable _ _ D2), app_nil_r. apply through_post; [assumption|discriminate|assumption].
  - apply union_l. unfold rseq. rewrite at_rows by exact Hq. rewrite reads_app.
    eapply bind_inn; apply through_post; try assumption; try discriminate. apply reads_lt, Hq.
Qed.

Lemma post_sound e m v : derives crule e m v -> through e m.
Proof.
  induction 1; intros Hm; try match goal with H : through ?e ?m |- _ => pose proof (through_post _ _ H Hm) as P end;
    try (cbn [post]; exact P).
  - intros q Hq. cbn [post]. rewrite at_rows by exact Hq. cbn. left. rewrite H. reflexivity.
  - intros q Hq. cbn [post]. rewrite HA. unfold rany. rewrite at_rows by exact Hq. cbn [reads fold_left]. apply nodup_In, in_map, all_selmaho_in.
  - intros q Hq. cbn [post]. rewrite HA. unfold rany. rewrite at_rows by exact Hq. cbn [reads fold_left]. apply nodup_In, in_map, all_selmaho_in.
  - intros q Hq. cbn [post]. apply HR; [exact Hq|]. apply P, Hq.
  - congruence.
  - eapply through_cons; eassumption.
  - intros q Hq. cbn [post]. unfold ror. rewrite at_rows by exact Hq. apply union_l, P, Hq.
  - intros q Hq. cbn [post]. unfold ror. rewrite at_rows by exact Hq. apply union_r, P, Hq.
  - congruence.
  - congruence.
  - pose proof (through_post _ _ IHderives1 H0) as P1. destruct m2 as [|t2 m2].
    + rewrite app_nil_r. split.
      * intros q Hq. apply plus_one, P1, Hq.
      * intros q0 q Hq Hin. eapply plus_closed; [exact Hin|]. apply P1, Hq.
    + destruct (IHderives2 ltac:(discriminate)) as [_ L2]. split.
      * intros q Hq. rewrite reads_app. apply L2; [apply reads_lt, Hq|]. apply plus_one, P1, Hq.
      * intros q0 q Hq Hin. rewrite reads_app. apply L2; [apply reads_lt, Hq|]. eapply plus_closed; [exact Hin|]. apply P1, Hq.
  - intros q Hq. cbn [post]. unfold rplus. rewrite at_rows by exact Hq.
    destruct m1 as [|t1 m1].
    + destruct (IHderives2 Hm) as [L _]. apply L, Hq.
    + pose proof (through_post _ _ IHderives1 ltac:(discriminate)) as P1. destruct m2 as [|t2 m2].
      * rewrite app_nil_r. apply plus_one, P1, Hq.
      * destruct (IHderives2 ltac:(discriminate)) as [_ L2]. rewrite reads_app. apply L2; [apply reads_lt, Hq|]. apply plus_one, P1, Hq.
  - split.
    + intros q Hq. cbn [post]. unfold ror. rewrite !at_rows by exact Hq. apply union_l, union_l, P, Hq.
    + intros q0 q Hq Hq0 Hin. cbn [post]. unfold ror, rseq. rewrite !at_rows by exact Hq0. apply union_l, union_r.
      eapply bind_inn; [unfold rplus; rewrite at_rows by exact Hq0; exact Hin|]. apply P, Hq.
  - pose proof (through_post _ _ IHderives1 H0) as P1. destruct m2 as [|t2 m2].
    + assert (Hg : nonnull cnn (GManyTill f g) = false) by (eapply nullable; eassumption). cbn [nonnull] in Hg.
      rewrite app_nil_r. assert (G : forall q0 q, (q0 < n)%nat -> inn (reads q m1) (plus (post f) q0) -> inn (reads q m1) (at_ (post (GManyTill f g)) q0)).
      { intros q0 q Hq0 Hin. cbn [post]. unfold ror. rewrite !at_rows by exact Hq0. apply union_r. rewrite Hg. cbn [rif].
        unfold rplus. rewrite at_rows by exact Hq0. exact Hin. }
      split.
      * intros q Hq. apply G; [exact Hq|]. apply plus_one, P1, Hq.
      * intros q0 q Hq Hq0 Hin. apply G; [exact Hq0|]. eapply plus_closed; [exact Hin|]. apply P1, Hq.
    + destruct (IHderives2 ltac:(discriminate)) as [_ L2]. split.
      * intros q Hq. rewrite reads_app. apply L2; [apply reads_lt, Hq|exact Hq|]. apply plus_one, P1, Hq.
      * intros q0 q Hq Hq0 Hin. rewrite reads_app. apply L2; [apply reads_lt, Hq|exact Hq0|]. eapply plus_closed; [exact Hin|]. apply P1, Hq.
Qed.
End Table.

Definition auto_step (any : rel) (tbl : list rel) : list rel :=
  map (fun x => post any (clook [] tbl) (crule x)) all_cnts.
Definition auto_table (any : rel) (k : nat) : list rel :=
  CstTotal.iter k (auto_step any) (map (fun _ => rnone) all_cnts).

(** the states after a whole non-empty text, if the table is a certificate;
    tables are computed by [auto_table] once, only the check is part of proofs *)
Definition finals (t : list rel) : states :=
  let any := rany in
  if forallb (fun x => let p := post any (clook [] t) (crule x) in let o := clook [] t x in
               forallb (fun q => subb (at_ p q) (at_ o q)) (seq 0 n)) all_cnts
  && forallb (fun s => forallb (fun q => Nat.ltb (step q s) n) (seq 0 n)) all_selmaho && Nat.ltb 0 n
  then at_ (clook [] t G_Text) 0 else None.

Lemma finals_sound t m root : cst_parse m = Ret (inl root) -> m <> [] -> inn (reads 0 m) (finals t).
Proof.
  intros H Hm. apply cst_parse_derives in H. unfold finals. destruct (_ && _) eqn:E; [|exact I].
  rewrite !andb_true_iff, !forallb_forall, Nat.ltb_lt in E. destruct E as [[E1 E2] E3].
  apply (through_post rany (clook [] t) (GCall G_Text) m); [|exact Hm|exact E3].
  eapply post_sound; [reflexivity| | |exact H].
  - intros x q Hq r Hr. specialize (E1 x (all_cnts_complete x)). rewrite forallb_forall in E1.
    eapply subb_inn; [apply E1|exact Hr]. apply in_seq. lia.
  - intros q s Hq. specialize (E2 s (all_selmaho_in s)). rewrite forallb_forall in E2. apply Nat.ltb_lt, E2, in_seq. lia.
Qed.
End Auto.

(** CstError.v -- which errors [Cst::parse] can report. *)
From Verif Require Import Base Span Selmaho Lex Cst CstRules CstApi CstMeta CstTotal SpecCst CstTree.
From Coq Require Import Lia Arith.

(** * Errors of the three cuts *)

Definition cut_bodies : list (gexp cnt) :=
  [tok_single "Foi" S_Foi; tok_single "Gaho" S_Gaho; GManyTill GAny (tok_single "Lehu" S_Lehu)].

Lemma cst_cuts x : cuts_in (fun b => In b cut_bodies) (crule x).
Proof. destruct x; cbn [crule]; unfold cut_bodies; cbn; repeat split; auto 10. Qed.

Lemma many0_noerr n i x : grun crule n (GMany0 (GCall G_Bahe)) i <> CErr x.
Proof. apply (noerr_run crule cnn cne cnd CST_D cst_ok). reflexivity. Qed.

(** [tok_single] fails with "expected" its own class or with a failed "not" *)
Lemma tok_single_err n name s i x : grun crule n (tok_single name s) i = CErr x ->
  (exists g, cerr x = ExpectedGot [s] g) \/ cerr x = Nom KNot.
Proof.
  unfold tok_single. cbn [gtuple fold_right].
  assert (H0 : forall n i x, grun crule n (GCons (GMany0 (GCall G_Bahe)) (GCons (GTok s) (GCons (GOpt (GCall G_Indicators)) GNil))) i = CErr x ->
            exists g, cerr x = ExpectedGot [s] g).
  { clear. intros n i x. destruct n as [|n]; [discriminate|]. cbn [grun].
    pose proof (many0_noerr n i) as E0. destruct (grun crule n (GMany0 _) i) as [|r v|z|z]; try discriminate; [|congruence].
    destruct n as [|n]; [discriminate|]. cbn [grun].
    destruct n as [|n]; [discriminate|]. cbn [grun].
    destruct r as [|t r]; cbn; [intros [= <-]; cbn; eauto|].
    destruct (sel_eqb (selmaho t) s); [|intros [= <-]; cbn; eauto].
    destruct n as [|n]; [discriminate|]. cbn [grun].
    destruct (grun crule n (GCall G_Indicators) r) as [|r' v'|z|z]; destruct n; cbn; discriminate. }
  destruct n as [|n]; [discriminate|]. cbn [grun].
  destruct (grun crule n (GNotAfter _ (GCall G_Zei)) i) as [|r v|z|z] eqn:E; try discriminate. intros [= <-].
  destruct n as [|n]; [discriminate|]. cbn [grun] in E.
  destruct (grun crule n (GNotAfter _ (GCall G_Bu)) i) as [|r v|y|y] eqn:E1; try discriminate.
  - destruct (grun crule n (GCall G_Zei) r); try discriminate. injection E as <-. right. reflexivity.
  - injection E as <-. destruct n as [|n]; [discriminate|]. cbn [grun] in E1.
    destruct (grun crule n (GCons _ _) i) as [|r v|w|w] eqn:E2; try discriminate.
    + destruct (grun crule n (GCall G_Bu) r); try discriminate. injection E1 as <-. right. reflexivity.
    + injection E1 as <-. left. eapply H0. exact E2.
Qed.

Lemma any_till_err n g : forall i x, grun crule n (GManyTill GAny g) i = CErr x -> x = mkerr [] (Nom KEof).
Proof.
  induction n as [|n IH]; intros i x; [discriminate|]. cbn [grun].
  destruct (grun crule n g i) as [|r v|z|z]; try discriminate.
  destruct n as [|n]; [discriminate|]. destruct i as [|t i]; [cbn; congruence|].
  change (grun crule (S n) GAny (t :: i)) with (COk i (VTok t)). cbv iota beta. replace (same_len i (t :: i)) with false.
  - destruct (grun crule (S n) (GManyTill GAny g) i) as [|r v|w|w] eqn:E; try discriminate. intros [= <-]. eapply IH. exact E.
  - symmetry. unfold same_len. apply Nat.eqb_neq. cbn. lia.
Qed.

(** * Without the words before a cut there is no failure *)

Section Quiet.
Context (A : Selmaho -> bool).
Definition quiet (m : list token) : Prop := forall t, In t m -> A (selmaho t) = false.

(** [e] cannot succeed on quiet input *)
Fixpoint dead (e : gexp cnt) : bool :=
  match e with
  | GTok s => A s
  | GAny | GSpan _ | GCall _ | GNil | GOpt _ | GLoop _ _ => false
  | GCons a b => dead a || dead b
  | GAlt a b => dead a && dead b
  | GManyTill _ g => dead g
  | GMany1 a | GCut a | GConsume _ a | GPost _ a | GNode _ a => dead a
  | GNotThen _ a | GNotAfter a _ => dead a
  end.

Lemma quiet_app a b : quiet (a ++ b) -> quiet a /\ quiet b.
Proof. intros H. split; intros t Ht; apply H; apply in_or_app; auto. Qed.

Lemma dead_derives e m v : derives crule e m v -> quiet m -> dead e = false.
Proof.
  induction 1; intros Q; cbn [dead]; try (apply quiet_app in Q as [Q1 Q2]); auto.
  - rewrite <- H. apply Q. left. reflexivity.
  - rewrite (IHderives1 Q1), (IHderives2 Q2). reflexivity.
  - rewrite (IHderives Q). reflexivity.
  - rewrite (IHderives Q). apply andb_false_r.
Qed.

Lemma dead_run n e i r v : quiet i -> dead e = true -> grun crule n e i <> COk r v.
Proof.
  intros Q D H. apply run_derives in H as (m & -> & Hd). apply quiet_app in Q as [Q _].
  rewrite (dead_derives _ _ _ Hd Q) in D. discriminate.
Qed.

Fixpoint nofail (e : gexp cnt) : bool :=
  match e with
  | GTok _ | GAny | GSpan _ | GCall _ | GNil => true
  | GCons a b => nofail a && (dead a || nofail b)
  | GAlt a b | GManyTill a b | GNotThen a b | GNotAfter a b => nofail a && nofail b
  | GOpt a | GLoop _ a | GMany1 a | GConsume _ a | GPost _ a | GNode _ a => nofail a
  | GCut a => false
  end.

Hypothesis HR : forall x, nofail (crule x) = true.

Lemma nofail_run n : forall e i x, nofail e = true -> quiet i -> grun crule n e i <> CFail x.
Proof.
  induction n as [|n IH]; intros e i x Hn Q; [discriminate|].
  assert (Hr : forall e i r v, grun crule n e i = COk r v -> quiet i -> quiet r).
  { intros e0 i0 r v H Q0. apply run_derives in H as (m & -> & _). apply quiet_app in Q0. tauto. }
  destruct e as [s| |nm|z| |e es|a b|e|k e|e|f g|p e|e p|e|nm e|c e|nm e]; cbn [grun nofail] in *; try discriminate.
  - destruct i; [discriminate|]. destruct (sel_eqb _ _); discriminate.
  - destruct i; discriminate.
  - destruct i; discriminate.
  - apply IH; auto.
  - apply andb_true_iff in Hn as [H1 H2]. pose proof (IH e i) as I1. destruct (grun crule n e i) as [|r v|y|y] eqn:E; try discriminate.
    + apply orb_true_iff in H2 as [H2|H2]; [destruct (dead_run _ _ _ _ _ Q H2 E)|].
      pose proof (IH es r) as I2. destruct (grun crule n es r); try discriminate. intros [= <-]. eapply I2; [exact H2|eauto|reflexivity].
    + intros [= <-]. eapply I1; eauto.
  - apply andb_true_iff in Hn as [H1 H2]. pose proof (IH a i) as I1. pose proof (IH b i) as I2.
    destruct (grun crule n a i); try discriminate.
    + destruct (grun crule n b i); try discriminate. intros [= <-]. eapply I2; eauto.
    + intros [= <-]. eapply I1; eauto.
  - pose proof (IH e i) as I1. destruct (grun crule n e i); try discriminate. intros [= <-]. eapply I1; eauto.
  - pose proof (IH e i) as I1. destruct (grun crule n e i) as [|r v|y|y] eqn:E; try discriminate; [|intros [= <-]; eapply I1; eauto].
    destruct (same_len r i); [discriminate|]. pose proof (IH (GLoop k e) r) as I2.
    destruct (grun crule n (GLoop k e) r); try discriminate. intros [= <-]. eapply I2; eauto.
  - pose proof (IH e i) as I1. destruct (grun crule n e i) as [|r v|y|y] eqn:E; try discriminate; [|intros [= <-]; eapply I1; eauto].
    pose proof (IH (GLoop KMany1 e) r) as I2.
    destruct (grun crule n (GLoop KMany1 e) r); try discriminate. intros [= <-]. eapply I2; eauto.
  - pose proof Hn as Hn'. apply andb_true_iff in Hn as [H1 H2]. pose proof (IH f i) as I1. pose proof (IH g i) as I2.
    destruct (grun crule n g i) as [|r v|y|y] eqn:E; try discriminate; [|intros [= <-]; eapply I2; eauto].
    destruct (grun crule n f i) as [|r v|z|z] eqn:E'; try discriminate; [|intros [= <-]; eapply I1; eauto].
    destruct (same_len r i); [discriminate|]. pose proof (IH (GManyTill f g) r) as I3.
    destruct (grun crule n (GManyTill f g) r); try discriminate. intros [= <-]. eapply I3; eauto.
  - apply andb_true_iff in Hn as [H1 H2]. pose proof (IH p i) as I1. pose proof (IH e i) as I2.
    destruct (grun crule n p i); try discriminate; [auto|]. intros [= <-]; eapply I1; eauto.
  - apply andb_true_iff in Hn as [H1 H2]. pose proof (IH e i) as I1.
    destruct (grun crule n e i) as [|r v|y|y] eqn:E; try discriminate; [|intros [= <-]; eapply I1; eauto].
    pose proof (IH p r) as I2. destruct (grun crule n p r); try discriminate. intros [= <-]. eapply I2; eauto.
  - pose proof (IH e i) as I1. destruct (grun crule n e i) as [|r v|y|y]; try discriminate; [|intros [= <-]; eapply I1; eauto].
    destruct (same_len r i); discriminate.
  - pose proof (IH e i) as I1. destruct (grun crule n e i) as [|r v|y|y]; try discriminate; [|intros [= <-]; eapply I1; eauto].
    destruct (holds c v); discriminate.
  - pose proof (IH e i) as I1. destruct (grun crule n e i) as [|r v|y|y]; try discriminate. intros [= <-]; eapply I1; eauto.
Qed.
End Quiet.

Definition before_cut (s : Selmaho) : bool := existsb (sel_eqb s) [S_Tei; S_Gaho; S_Lohu].

Lemma cst_nofail x : nofail before_cut (crule x) = true.
Proof. destruct x; vm_compute; reflexivity. Qed.

(** * Reported errors *)

Lemma root_noerr n i x : grun crule n al_Root i <> CErr x.
Proof. apply (noerr_run crule cnn cne cnd CST_D cst_ok). reflexivity. Qed.

Lemma reported toks e : cst_parse toks = Ret (inr e) ->
  (cerr e = Nom KEof /\ location e <> [] /\ exists root, grun crule (cst_fuel toks) al_Root toks = COk (location e) root) \/
  grun crule (cst_fuel toks) al_Root toks = CFail e.
Proof.
  unfold cst_parse. pose proof (root_noerr (cst_fuel toks) toks) as N.
  destruct (grun crule (cst_fuel toks) al_Root toks) as [|[|t r] v|x|x]; intros [= <-]; auto.
  - left. cbn. repeat split; try discriminate. eauto.
  - destruct (N x eq_refl).
Qed.

Lemma reported_err_ok toks e : cst_parse toks = Ret (inr e) -> err_ok toks e.
Proof.
  intros H. apply reported in H as [(H1 & H2 & root & H3)|H].
  - apply err_ok_at; [rewrite H1; discriminate|]. apply run_derives in H3 as (m & -> & _). eauto.
  - eapply run_err_ok. rewrite H. reflexivity.
Qed.

Lemma reported_kind toks e : cst_parse toks = Ret (inr e) ->
  (cerr e = Nom KEof) \/ (cerr e = Nom KNot) \/ (exists s g, In s [S_Foi; S_Gaho] /\ cerr e = ExpectedGot [s] g).
Proof.
  intros H. apply reported in H as [(H1 & _)|H]; [auto|].
  apply (fail_from_cut crule (fun b => In b cut_bodies) cst_cuts) in H as (b & m & j & k & Hb & _ & Hk); [|exact I].
  destruct Hb as [<-|[<-|[<-|[]]]].
  - apply tok_single_err in Hk as [(g & Hg)|Hk]; [|auto]. right. right. exists S_Foi, g. cbn. auto.
  - apply tok_single_err in Hk as [(g & Hg)|Hk]; [|auto]. right. right. exists S_Gaho, g. cbn. auto.
  - apply any_till_err in Hk as ->. auto.
Qed.

Lemma reported_quiet toks e : cst_parse toks = Ret (inr e) ->
  ~ contains S_Tei toks -> ~ contains S_Gaho toks -> ~ contains S_Lohu toks ->
  cerr e = Nom KEof /\ location e <> [].
Proof.
  intros H N1 N2 N3. apply reported in H as [(H1 & H2 & _)|H]; [auto|]. exfalso.
  refine (nofail_run before_cut cst_nofail _ al_Root toks e eq_refl _ H).
  intros t Ht. unfold before_cut. cbn [existsb].
  destruct (sel_eqb (selmaho t) S_Tei) eqn:E1; [apply sel_eqb_eq in E1; destruct N1; exists t; auto|].
  destruct (sel_eqb (selmaho t) S_Gaho) eqn:E2; [apply sel_eqb_eq in E2; destruct N2; exists t; auto|].
  destruct (sel_eqb (selmaho t) S_Lohu) eqn:E3; [apply sel_eqb_eq in E3; destruct N3; exists t; auto|]. reflexivity.
Qed.

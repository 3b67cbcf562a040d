(** CstIndic.v -- attitudinals and emphasis are transparent: a simulation between
    the parser on a text and on the text without them. *)
From Verif Require Import Base Span Selmaho Lex Cst CstRules CstApi CstMeta CstTotal SpecCst CstTree CstBalance CstThms CstSimp.
From Coq Require Import Lia Arith.

Definition is_nt (x y : cnt) : bool := Nat.eqb (cnt_idx x) (cnt_idx y).
Lemma is_nt_eq x y : is_nt x y = true <-> x = y.
Proof.
  unfold is_nt. rewrite Nat.eqb_eq. split; [|intros ->; reflexivity]. intros E.
  pose proof (all_cnts_nth x) as H. pose proof (all_cnts_nth y) as H2. rewrite E in H. congruence.
Qed.
Definition calls (x : cnt) (e : rx) : bool := match e with XCall y => is_nt y x | _ => false end.
Lemma calls_eq x e : calls x e = true -> e = XCall x.
Proof. destruct e; try discriminate. cbn. rewrite is_nt_eq. intros ->. reflexivity. Qed.

(** X only looks at suffixes *)
Lemma X_suffix tbl e i r : X tbl e i r -> forall j, r = Ok j -> exists m, i = m ++ j.
Proof.
  induction 1; intros k0 Ek; try discriminate; try (injection Ek as <-); subst;
    try (exists []; reflexivity); try (exists [t]; reflexivity); eauto.
  - destruct (IHX1 _ eq_refl) as (m1 & ->). destruct (IHX2 _ eq_refl) as (m2 & ->). exists (m1 ++ m2). apply app_assoc.
  - destruct (IHX1 _ eq_refl) as (m1 & ->). destruct (IHX2 _ eq_refl) as (m2 & ->). exists (m1 ++ m2). apply app_assoc.
  - destruct (IHX2 _ eq_refl) as (m1 & ->). destruct (IHX3 _ eq_refl) as (m2 & ->). exists (m1 ++ m2). apply app_assoc.
Qed.

Definition ind_classes : list Selmaho := [S_Ui; S_Cai; S_Nai; S_Daho; S_Fuho; S_Y].
Definition is_ind (t : token) : bool := mem ind_classes (selmaho t).
Definition is_bahe (t : token) : bool := sel_eqb (selmaho t) S_Bahe.
Definition plain (t : token) : bool := negb (is_ind t || is_bahe t).
Definition strip (i : list token) : list token := filter plain i.
Arguments is_ind : simpl never.
Arguments is_bahe : simpl never.
Arguments plain : simpl never.

(** past the ba'e's *)
Fixpoint skipb (i : list token) : list token :=
  match i with t :: r => if is_bahe t then skipb r else i | [] => [] end.
Definition clean (i : list token) : bool := match skipb i with t :: _ => negb (is_ind t) | [] => true end.
(** past the indicators *)
Fixpoint nrm (keep i : list token) : list token :=
  match i with
  | t :: r => if is_bahe t then nrm keep r else if is_ind t then nrm r r else keep
  | [] => keep
  end.

(** every ba'e is followed by a word, other than lu *)
Fixpoint bahe_ok (i : list token) : bool :=
  match i with
  | [] => true
  | t :: r => (if is_bahe t then match r with [] => false | u :: _ => negb (sel_eqb (selmaho u) S_Lu) end else true) && bahe_ok r
  end.

Lemma ind_not_bahe t : is_ind t = true -> is_bahe t = false.
Proof. unfold is_ind, is_bahe, mem, ind_classes. intros H. destruct (sel_eqb (selmaho t) S_Bahe) eqn:E; [|reflexivity]. apply sel_eqb_eq in E. rewrite E in H. discriminate H. Qed.
Lemma bahe_not_ind t : is_bahe t = true -> is_ind t = false.
Proof. intros H. destruct (is_ind t) eqn:E; [|reflexivity]. rewrite (ind_not_bahe _ E) in H. discriminate. Qed.

Lemma strip_skipb i : strip (skipb i) = strip i.
Proof.
  induction i as [|t r IH]; [reflexivity|]. cbn [skipb]. destruct (is_bahe t) eqn:E; [|reflexivity].
  rewrite IH. unfold strip. cbn [filter]. unfold plain at 2. rewrite E, orb_true_r. reflexivity.
Qed.
Lemma skipb_skipb i : skipb (skipb i) = skipb i.
Proof. induction i as [|t r IH]; [reflexivity|]. cbn. destruct (is_bahe t) eqn:E; [exact IH|]. cbn. rewrite E. reflexivity. Qed.
Lemma bahe_ok_suffix m : forall j, bahe_ok (m ++ j) = true -> bahe_ok j = true.
Proof. induction m as [|t m IH]; intros j H; [exact H|]. cbn in H. apply andb_true_iff in H as [_ H]. apply IH, H. Qed.
Lemma skipb_suffix i : exists m, i = m ++ skipb i.
Proof. induction i as [|t r (m & IH)]; [exists []; reflexivity|]. cbn. destruct (is_bahe t); [exists (t :: m); cbn; f_equal; exact IH|exists []; reflexivity]. Qed.

Lemma strip_bahe m : forallb is_bahe m = true -> strip m = [].
Proof.
  induction m as [|u m IHm]; [reflexivity|]. cbn [forallb]. intros Hm. apply andb_true_iff in Hm as [H1 H2]. unfold strip. cbn [filter].
  assert (plain u = false) as -> by (unfold plain; rewrite H1, orb_true_r; reflexivity). apply IHm, H2.
Qed.
Lemma strip_nrm keep i : (exists m, keep = m ++ i /\ forallb is_bahe m = true) -> strip (nrm keep i) = strip keep /\ clean (nrm keep i) = true.
Proof.
  revert keep. induction i as [|t r IH]; intros keep (m & -> & Hm); cbn [nrm].
  - rewrite app_nil_r. split; [reflexivity|]. unfold clean. enough (skipb m = []) as -> by reflexivity.
    induction m as [|u m IHm]; [reflexivity|]. cbn in *. apply andb_true_iff in Hm as [H1 H2]. rewrite H1. auto.
  - destruct (is_bahe t) eqn:E.
    + apply IH. exists (m ++ [t]). rewrite <- app_assoc. split; [reflexivity|]. rewrite forallb_app, Hm. cbn. rewrite E. reflexivity.
    + destruct (is_ind t) eqn:E2.
      * destruct (IH r (ex_intro _ [] (conj eq_refl eq_refl))) as [H1 H2]. split; [|exact H2]. rewrite H1. unfold strip. rewrite filter_app. cbn [filter].
        assert (plain t = false) as -> by (unfold plain; rewrite E2; reflexivity). fold (strip m). rewrite (strip_bahe m Hm). reflexivity.
      * split; [reflexivity|]. unfold clean. enough (skipb (m ++ t :: r) = t :: r) as -> by (rewrite E2; reflexivity).
        induction m as [|u m IHm]; cbn in *; [rewrite E; reflexivity|]. apply andb_true_iff in Hm as [H1 H2]. rewrite H1. auto.
Qed.
Lemma strip_nrm0 i : strip (nrm i i) = strip i.
Proof. apply (strip_nrm i i). exists []. split; reflexivity. Qed.
Lemma clean_nrm0 i : clean (nrm i i) = true.
Proof. apply (strip_nrm i i). exists []. split; reflexivity. Qed.
Lemma nrm_skipb keep i : nrm keep (skipb i) = nrm keep i.
Proof. induction i as [|t r IH]; [reflexivity|]. cbn. destruct (is_bahe t) eqn:E; [exact IH|]. cbn. rewrite E. reflexivity. Qed.
Lemma nrm_clean i : clean i = true -> nrm i i = i.
Proof. unfold clean. rewrite <- (nrm_skipb i i). destruct (skipb i) as [|t r] eqn:E; [reflexivity|]. intros H. cbn. pose proof (skipb_skipb i) as H2. rewrite E in H2. cbn in H2.
  destruct (is_bahe t) eqn:Eb.
  - exfalso. pose proof (skipb_suffix r) as (m & Hm). rewrite H2 in Hm. apply (f_equal (@List.length token)) in Hm. rewrite app_length in Hm. cbn in Hm. lia.
  - apply negb_true_iff in H. rewrite H. reflexivity.
Qed.
Lemma nrm_suffix i : forall keep, (exists m, keep = m ++ i) -> exists m, keep = m ++ nrm keep i.
Proof.
  induction i as [|t r IH]; intros keep (m & ->); cbn [nrm]; [exists []; reflexivity|].
  destruct (is_bahe t); [apply IH; exists (m ++ [t]); rewrite <- app_assoc; reflexivity|].
  destruct (is_ind t); [|exists []; reflexivity].
  destruct (IH r (ex_intro _ [] eq_refl)) as (m2 & H). exists (m ++ t :: m2). rewrite <- app_assoc. cbn. f_equal. f_equal. exact H.
Qed.

Section Sim.
Context (tbl : cnt -> rx).
(** the shapes relied on *)
Definition lone (s : Selmaho) : rx := XSeq (XLoop (XCall G_Bahe)) (XSeq (XTok s) (XOpt (XCall G_Indicators))).
Context (Hbahe : tbl G_Bahe = XTok S_Bahe)
  (Hinds : tbl G_Indicators = XSeq (XCall G_Indicator) (XLoop (XCall G_Indicator)))
  (Hind : tbl G_Indicator = XAlt (XAlt (XAlt (XAlt (XAlt (lone S_Ui) (lone S_Cai)) (lone S_Nai)) (lone S_Daho)) (lone S_Fuho)) (lone S_Y)).

Lemma X_bahe i : X tbl (XLoop (XCall G_Bahe)) i (Ok (skipb i)).
Proof.
  induction i as [|t r IH].
  - apply x_loop_end. constructor. rewrite Hbahe. constructor.
  - cbn. unfold is_bahe. destruct (sel_eqb (selmaho t) S_Bahe) eqn:E.
    + eapply x_loop_more; [constructor; rewrite Hbahe; constructor; apply sel_eqb_eq, E| |exact IH]. cbn. lia.
    + apply x_loop_end. constructor. rewrite Hbahe. constructor. apply sel_eqb_neq, E.
Qed.

(** indicators: what the rule does *)
Definition starts (i : list token) : bool := negb (clean i).

Lemma X_lone s i r : X tbl (XSeq (XTok s) (XOpt (XCall G_Indicators))) (skipb i) r -> X tbl (lone s) i r.
Proof. intros H. eapply x_seq; [apply X_bahe|exact H]. Qed.

Lemma X_lone_no s i : (forall t r, skipb i = t :: r -> selmaho t <> s) -> X tbl (lone s) i Er.
Proof.
  intros H. apply X_lone. apply x_seq_no. destruct (skipb i) as [|t r]; [constructor|]. constructor. eapply H. reflexivity.
Qed.

Lemma X_ind_no i : clean i = true -> X tbl (XCall G_Indicator) i Er.
Proof.
  intros H. constructor. rewrite Hind.
  assert (A : forall s, In s ind_classes -> X tbl (lone s) i Er).
  { intros s Hs. apply X_lone_no. intros t r E. unfold clean in H. rewrite E in H. apply negb_true_iff in H. unfold is_ind in H. apply mem_notin in H. intros <-. exact (H Hs). }
  repeat (apply x_alt_r; [|apply A; unfold ind_classes; cbn; tauto]). apply A. unfold ind_classes; cbn; tauto.
Qed.
Lemma X_inds_no i : clean i = true -> X tbl (XOpt (XCall G_Indicators)) i (Ok i).
Proof. intros H. apply x_opt_no. constructor. rewrite Hinds. apply x_seq_no, X_ind_no, H. Qed.

Lemma X_ind i k t : skipb i = t :: k -> is_ind t = true -> X tbl (XOpt (XCall G_Indicators)) k (Ok (nrm k k)) -> X tbl (XCall G_Indicator) i (Ok (nrm k k)).
Proof.
  intros Es Ht Hk. constructor. rewrite Hind.
  assert (A : X tbl (lone (selmaho t)) i (Ok (nrm k k))).
  { apply X_lone. rewrite Es. eapply x_seq; [constructor; reflexivity|exact Hk]. }
  assert (B : forall s, selmaho t <> s -> X tbl (lone s) i Er).
  { intros s Hs. apply X_lone_no. rewrite Es. intros ? ? [= <- <-]. exact Hs. }
  unfold is_ind in Ht. apply mem_in in Ht. unfold ind_classes in Ht. cbn in Ht.
  destruct Ht as [E|[E|[E|[E|[E|[E|[]]]]]]]; rewrite <- E in *.
  - do 5 apply x_alt_l. exact A.
  - do 4 apply x_alt_l. apply x_alt_r; [|exact A]. apply B; discriminate.
  - do 3 apply x_alt_l. apply x_alt_r; [|exact A]. repeat (apply x_alt_r; [|apply B; discriminate]). apply B; discriminate.
  - do 2 apply x_alt_l. apply x_alt_r; [|exact A]. repeat (apply x_alt_r; [|apply B; discriminate]). apply B; discriminate.
  - do 1 apply x_alt_l. apply x_alt_r; [|exact A]. repeat (apply x_alt_r; [|apply B; discriminate]). apply B; discriminate.
  - apply x_alt_r; [|exact A]. repeat (apply x_alt_r; [|apply B; discriminate]). apply B; discriminate.
Qed.

Lemma X_inds n : forall i, (List.length i <= n)%nat -> X tbl (XOpt (XCall G_Indicators)) i (Ok (nrm i i)).
Proof.
  induction n as [|n IH]; intros i Hl.
  - assert (i = []) as -> by (destruct i; [reflexivity|cbn in Hl; lia]). apply X_inds_no. reflexivity.
  - destruct (clean i) eqn:Ec; [rewrite (nrm_clean _ Ec); apply X_inds_no, Ec|].
    unfold clean in Ec. destruct (skipb i) as [|t k] eqn:Es; [discriminate|]. apply negb_false_iff in Ec.
    assert (Hk : (List.length k <= n)%nat).
    { destruct (skipb_suffix i) as (m & Hm). rewrite Es in Hm. apply (f_equal (@List.length token)) in Hm. rewrite app_length in Hm. cbn in Hm. lia. }
    assert (En : nrm i i = nrm k k).
    { rewrite <- nrm_skipb, Es. cbn. rewrite (ind_not_bahe _ Ec), Ec. reflexivity. }
    rewrite En. apply x_opt. constructor. rewrite Hinds.
    eapply x_seq; [eapply X_ind; [exact Es|exact Ec|apply IH, Hk]|]. apply x_loop_end, X_ind_no, clean_nrm0.
Qed.
Lemma X_inds_is i r : X tbl (XOpt (XCall G_Indicators)) i r -> r = Ok (nrm i i).
Proof. intros H. eapply X_det; [exact H|]. eapply X_inds, le_n. Qed.
Lemma X_bahe_is i r : X tbl (XLoop (XCall G_Bahe)) i r -> r = Ok (skipb i).
Proof. intros H. eapply X_det; [exact H|]. apply X_bahe. Qed.

(** ** Erasing *)
Fixpoint er (e : rx) : rx :=
  match e with
  | XOpt a => if calls G_Indicators a then XNil else XOpt (er a)
  | XLoop a => if calls G_Bahe a then XNil else XLoop (er a)
  | XSeq a b => XSeq (er a) (er b)
  | XAlt a b => XAlt (er a) (er b)
  | XNotThen p a => XNotThen (er p) (er a)
  | XNotAfter a p => XNotAfter (er a) (er p)
  | XConsume a => XConsume (er a)
  | XCut a => XCut (er a)
  | _ => e
  end.
Definition tbl' (x : cnt) : rx := er (tbl x).

Context (gset : cnt -> bool).

Definition opt_inds (e : rx) : bool := match e with XOpt a => calls G_Indicators a | _ => false end.
Definition loop_bahe (e : rx) : bool := match e with XLoop a => calls G_Bahe a | _ => false end.

Fixpoint good (e : rx) : bool :=
  match e with
  | XFail | XNil => true
  | XCall x => gset x
  | XOpt a => calls G_Indicators a || good a
  | XSeq a b =>
      if loop_bahe a then match b with XSeq (XTok s) c => lead c | _ => false end
      else match a with XTok s => sel_eqb s S_Lu && lead b | _ => good a && good b end
  | XAlt a b => good a && good b
  | XLoop a => good a
  | XNotThen p a => good p && good a
  | XNotAfter a p => good a && good p
  | XConsume a => good a
  | XCut a => good a
  | _ => false
  end
with lead (e : rx) : bool :=
  match e with
  | XOpt a => calls G_Indicators a
  | XSeq a b => lead a && good b
  | XCall x => is_nt x G_Text
  | _ => false
  end.

Definition sr (r : xres) : xres := match r with Ok j => Ok (strip j) | Er => Er | Fa => Fa end.
Definition len (i : list token) : nat := List.length (strip i).
(** what is known of the rest *)
Definition post (i : list token) (r : xres) : Prop :=
  match r with Ok j => clean j = true /\ (j = i \/ len j < len i)%nat | _ => True end.
Definition post' (i : list token) (r : xres) : Prop :=
  match r with Ok j => clean j = true /\ (len j <= len i)%nat | _ => True end.

(** [tk]: on inputs that start with a word *)
Definition tk (e : rx) : bool := match e with XSeq (XTok s) c => lead c | _ => false end.
Definition word (i : list token) : bool := match i with t :: _ => plain t | [] => true end.

Context (Hgb : gset G_Bahe = false) (Hgset : forall x, gset x = true -> good (tbl x) = true) (Htext : lead (tbl G_Text) = true).

Lemma good_seq a b : good (XSeq a b) = true ->
  (a = XLoop (XCall G_Bahe) /\ tk b = true) \/ (a = XTok S_Lu /\ lead b = true) \/
  (good a = true /\ good b = true /\ loop_bahe a = false /\ opt_inds a = opt_inds a).
Proof.
  cbn [good]. destruct (loop_bahe a) eqn:E.
  - intros H. left. destruct a; try discriminate. apply calls_eq in E as ->. split; [reflexivity|]. destruct b; try discriminate. destruct b1; try discriminate. exact H.
  - destruct a; try (intros H; apply andb_true_iff in H as [H1 H2]; right; right; auto; fail).
    intros H. apply andb_true_iff in H as [H1 H2]. apply sel_eqb_eq in H1 as ->. right; left. auto.
Qed.

Lemma strip_plain t r : plain t = true -> strip (t :: r) = t :: strip r.
Proof. intros H. unfold strip. cbn. rewrite H. reflexivity. Qed.
Lemma len_cons t r : plain t = true -> len (t :: r) = S (len r).
Proof. intros H. unfold len. rewrite strip_plain by exact H. reflexivity. Qed.
Lemma clean_word_skipb i : clean i = true -> word (skipb i) = true.
Proof.
  unfold clean, word. pose proof (skipb_skipb i) as H. destruct (skipb i) as [|t r]; [reflexivity|]. intros Hc. unfold plain. apply negb_true_iff in Hc. rewrite Hc. cbn.
  destruct (is_bahe t) eqn:E; [|reflexivity]. cbn in H. rewrite E in H. exfalso. pose proof (skipb_suffix r) as (m & Hm). rewrite H in Hm. apply (f_equal (@List.length token)) in Hm. rewrite app_length in Hm. cbn in Hm. lia.
Qed.
Lemma same_length i j : (j = i \/ len j < len i)%nat -> List.length j <> List.length i -> List.length (strip j) <> List.length (strip i).
Proof. intros [->|H] Hn; [congruence|]. unfold len in H. lia. Qed.
Lemma same_length2 i j : (j = i \/ len j < len i)%nat -> (exists m, i = m ++ j) -> List.length j = List.length i -> List.length (strip j) = List.length (strip i).
Proof.
  intros _ (m & ->) E. rewrite app_length in E. assert (m = []) as -> by (destruct m; [reflexivity|cbn in E; lia]). reflexivity.
Qed.

(** no ba'e before lu, so a leading ba'e is not followed by lu *)
Lemma bahe_lu i t r : bahe_ok i = true -> clean i = true -> i = t :: r -> is_bahe t = true -> exists u k, strip i = u :: k /\ selmaho u <> S_Lu.
Proof.
  revert t r. induction i as [|t0 i IH]; intros t r Hb Hc [= -> ->] Ht.
  cbn in Hb. rewrite Ht in Hb. apply andb_true_iff in Hb as [H1 H2]. destruct r as [|u k]; [discriminate|].
  apply negb_true_iff, sel_eqb_neq in H1. unfold clean in Hc. cbn in Hc. rewrite Ht in Hc. destruct (is_bahe u) eqn:Eu.
  - assert (Hc' : clean (u :: k) = true). { unfold clean. cbn. rewrite Eu. exact Hc. }
    destruct (IH u k H2 Hc' eq_refl Eu) as (v & l & E & N). exists v, l. split; [|exact N]. rewrite <- E.
    unfold strip. cbn [filter]. unfold plain at 1. rewrite Ht, orb_true_r. reflexivity.
  - exists u, (strip k). split; [|exact H1]. unfold strip. cbn [filter]. unfold plain at 1. rewrite Ht, orb_true_r. cbn [negb]. unfold plain at 1. rewrite Eu. apply negb_true_iff in Hc. rewrite Hc. reflexivity.
Qed.

Lemma ok_suffix e i j : X tbl e i (Ok j) -> exists m, i = m ++ j.
Proof. intros H. eapply X_suffix; [exact H|reflexivity]. Qed.
Lemma ok_bahe e i j : X tbl e i (Ok j) -> bahe_ok i = true -> bahe_ok j = true.
Proof. intros H. destruct (ok_suffix _ _ _ H) as (m & ->). apply bahe_ok_suffix. Qed.

Definition P1 (e : rx) i r := good e = true -> clean i = true -> post i r /\ X tbl' (er e) (strip i) (sr r).
Definition P2 (e : rx) i r := lead e = true -> post' i r /\ X tbl' (er e) (strip i) (sr r).
Definition P3 (e : rx) i r := tk e = true -> word i = true -> (match r with Ok j => clean j = true /\ (len j < len i)%nat | _ => True end) /\ X tbl' (er e) (strip i) (sr r).

Lemma post_trans i j r : clean j = true /\ (j = i \/ len j < len i)%nat -> post j r -> post i r.
Proof. destruct r as [k| |]; try (intros; exact I). cbn. intros [_ [->|H]] [Hc [->|H2]]; split; auto; right; lia. Qed.
Lemma post_trans' i j r : clean j = true /\ (len j <= len i)%nat -> post j r -> post' i r.
Proof. destruct r as [k| |]; try (intros; exact I). cbn. intros [_ H] [Hc [->|H2]]; split; auto; lia. Qed.

Lemma inds_good a i r : calls G_Indicators a = true -> X tbl (XOpt a) i r -> clean i = true -> post i r /\ X tbl' XNil (strip i) (sr r).
Proof. intros E H Hc. apply calls_eq in E as ->. apply X_inds_is in H as ->. rewrite nrm_clean by exact Hc. cbn. split; [auto|constructor]. Qed.
Lemma inds_lead a i r : calls G_Indicators a = true -> X tbl (XOpt a) i r -> post' i r /\ X tbl' XNil (strip i) (sr r).
Proof. intros E H. apply calls_eq in E as ->. apply X_inds_is in H as ->. cbn. rewrite strip_nrm0. split; [|constructor]. split; [apply clean_nrm0|]. unfold len. rewrite strip_nrm0. lia. Qed.

Lemma good_not_bahe a : good a = true -> calls G_Bahe a = false.
Proof. destruct a; try reflexivity. cbn. intros H. destruct (is_nt x G_Bahe) eqn:E; [|reflexivity]. apply is_nt_eq in E as ->. congruence. Qed.

(** the two special beginnings *)
Lemma lu_start i r : bahe_ok i = true -> clean i = true -> X tbl (XTok S_Lu) i r ->
  X tbl' (XTok S_Lu) (strip i) (sr r) /\ (forall j, r = Ok j -> (len j < len i)%nat).
Proof.
  intros Hb Hc H. inversion H; subst.
  - assert (plain t = true) as Hp. { unfold plain, is_ind, is_bahe. match goal with E : selmaho t = _ |- _ => rewrite E end. reflexivity. }
    rewrite (strip_plain _ _ Hp). split; [constructor; assumption|]. intros j [= <-]. rewrite (len_cons _ _ Hp). lia.
  - split; [|discriminate]. destruct (plain t) eqn:Hp; [rewrite (strip_plain _ _ Hp); constructor; assumption|].
    unfold plain in Hp. apply negb_false_iff, orb_true_iff in Hp. destruct Hp as [Hp|Hp].
    + unfold clean in Hc. cbn in Hc. rewrite (ind_not_bahe _ Hp), Hp in Hc. discriminate.
    + destruct (bahe_lu _ _ _ Hb Hc eq_refl Hp) as (u & k & -> & N). constructor. exact N.
  - split; [constructor|discriminate].
Qed.
Lemma tok_start s i r : word i = true -> X tbl (XTok s) i r ->
  X tbl' (XTok s) (strip i) (sr r) /\ (forall j, r = Ok j -> (len j < len i)%nat).
Proof.
  intros Hc H. inversion H; subst; cbn [word] in Hc.
  - rewrite (strip_plain _ _ Hc). split; [constructor; reflexivity|]. intros j [= <-]. rewrite (len_cons _ _ Hc). lia.
  - rewrite (strip_plain _ _ Hc). split; [constructor; assumption|discriminate].
  - split; [constructor|discriminate].
Qed.

Ltac and_split := repeat match goal with H : _ && _ = true |- _ => apply andb_true_iff in H as [? ?] | H : _ /\ _ |- _ => destruct H end.
Ltac use := repeat match goal with
  | IH : P1 ?a ?i ?r, G : good ?a = true, C : clean ?i = true |- _ => destruct (IH G C); clear IH
  | IH : P2 ?a ?i ?r, G : lead ?a = true |- _ => destruct (IH G); clear IH
  | H : post ?i (Ok ?j) |- _ => let A := fresh "C" in let B := fresh "L" in destruct H as [A B]
  | H : post' ?i (Ok ?j) |- _ => let A := fresh "C" in let B := fresh "L" in destruct H as [A B]
  end.

Theorem sim e i r : X tbl e i r -> bahe_ok i = true -> P1 e i r /\ P2 e i r /\ P3 e i r.
Proof.
  intros H. pose proof H as H0.
  induction H; intros Hb;
    repeat match goal with
    | H : X tbl ?a ?i ?r, IH : X tbl ?a ?i ?r -> _ |- _ => specialize (IH H)
    | IH : bahe_ok ?i = true -> _, Hb : bahe_ok ?i = true |- _ => specialize (IH Hb)
    | H : X tbl ?a ?i (Ok ?j), Hb : bahe_ok ?i = true, IH : bahe_ok ?j = true -> _ |- _ => specialize (IH (ok_bahe _ _ _ H Hb))
    end;
    (split; [|split]; [unfold P1; intros G C|unfold P2; intros G|unfold P3; intros G C]); try discriminate G.
  - split; [exact I|constructor].
  - split; [cbn; auto|constructor].
  - (* call *) cbn [good] in G. apply Hgset in G. and_split. use. split; [assumption|]. constructor. assumption.
  - cbn [lead] in G. apply is_nt_eq in G as ->. and_split. use. split; [assumption|]. constructor. assumption.
  - (* seq *) apply good_seq in G as [(-> & G)|[(-> & G)|(G1 & G2 & _)]]; and_split.
    + pose proof (X_bahe_is _ _ H) as E. injection E as ->. match goal with IH : P3 b _ _ |- _ => destruct (IH G (clean_word_skipb _ C)) as [A B] end. rewrite strip_skipb in B. split.
      * destruct r as [k| |]; try exact I. destruct A as [A1 A2]. split; [exact A1|]. right. unfold len in *. rewrite strip_skipb in A2. exact A2.
      * cbn [er calls]. rewrite (proj2 (is_nt_eq _ _) eq_refl). eapply x_seq; [constructor|exact B].
    + destruct (lu_start _ _ Hb C H) as [A B]. specialize (B _ eq_refl). use. split.
      * destruct r as [k| |]; try exact I. use. split; [assumption|]. right. lia.
      * eapply x_seq; [exact A|assumption].
    + use. split; [eapply post_trans; [split; eassumption|assumption]|]. eapply x_seq; eassumption.
  - cbn [lead] in G. and_split. use. split; [eapply post_trans'; [split; eassumption|assumption]|]. eapply x_seq; eassumption.
  - destruct a; try discriminate G. cbn [tk] in G. and_split. destruct (tok_start _ _ _ C H) as [A B]. specialize (B _ eq_refl). use. split.
    + destruct r as [k| |]; try exact I. use. split; [assumption|lia].
    + eapply x_seq; [exact A|assumption].
  - (* seq, first fails *) split; [exact I|]. apply good_seq in G as [(-> & G)|[(-> & G)|(G1 & G2 & _)]]; and_split.
    + pose proof (X_bahe_is _ _ H) as E. discriminate E.
    + destruct (lu_start _ _ Hb C H) as [A B]. apply x_seq_no. exact A.
    + use. apply x_seq_no. assumption.
  - split; [exact I|]. cbn [lead] in G. and_split. use. apply x_seq_no. assumption.
  - split; [exact I|]. destruct a; try discriminate G. destruct (tok_start _ _ _ C H) as [A B]. apply x_seq_no. exact A.
  - (* alt *) cbn [good] in G. and_split. use. split; [split; assumption|]. apply x_alt_l. assumption.
  - cbn [good] in G. and_split. use. split; [assumption|]. apply x_alt_r; assumption.
  - (* opt *) cbn [good er] in *. destruct (calls G_Indicators a) eqn:E; [eapply inds_good; eassumption|]. cbn in G. and_split. use. split; [split; assumption|]. apply x_opt. assumption.
  - cbn [lead er] in *. rewrite G. eapply inds_lead; eassumption.
  - cbn [good er] in *. destruct (calls G_Indicators a) eqn:E; [eapply inds_good; eassumption|]. cbn in G. and_split. use. split; [split; auto|]. apply x_opt_no. assumption.
  - cbn [lead er] in *. rewrite G. eapply inds_lead; eassumption.
  - (* loop *) cbn [good er] in *. rewrite (good_not_bahe _ G). and_split. use. split; [split; auto|]. apply x_loop_end. assumption.
  - cbn [good er] in *. rewrite (good_not_bahe _ G) in *. and_split. use.
    match goal with IH : P1 (XLoop a) j r |- _ => destruct (IH G ltac:(assumption)) as [A B] end. cbn [er] in B. rewrite (good_not_bahe _ G) in B.
    split; [eapply post_trans; [split; eassumption|assumption]|]. eapply x_loop_more; [eassumption|apply same_length; assumption|exact B].
  - cbn [good er] in *. rewrite (good_not_bahe _ G) in *. and_split. use. split; [exact I|]. eapply x_loop_stuck; [eassumption|]. eapply same_length2; [eassumption|eapply ok_suffix; eassumption|assumption].
  - (* not then *) cbn [good] in G. and_split. use. split; [exact I|]. eapply x_nt_hit; eassumption.
  - cbn [good] in G. and_split. use. split; [assumption|]. apply x_nt; assumption.
  - (* not after *) cbn [good] in G. and_split. use. split; [exact I|]. eapply x_na_no; eassumption.
  - cbn [good] in G. and_split. use. split; [exact I|]. eapply x_na_hit; eassumption.
  - cbn [good] in G. and_split. use. split; [split; assumption|]. apply x_na; assumption.
  - (* consume *) cbn [good] in G. and_split. use. split; [exact I|]. apply x_co_no; assumption.
  - cbn [good] in G. and_split. use. split; [exact I|]. eapply x_co_stuck; [eassumption|]. eapply same_length2; [eassumption|eapply ok_suffix; eassumption|assumption].
  - cbn [good] in G. and_split. use. split; [split; assumption|]. apply x_co; [assumption|apply same_length; assumption].
  - (* failures *) split; [exact I|]. apply good_seq in G as [(-> & G)|[(-> & G)|(G1 & G2 & _)]]; and_split.
    + pose proof (X_bahe_is _ _ H) as E. discriminate E.
    + inversion H.
    + use. apply x_seq_fa. assumption.
  - split; [exact I|]. cbn [lead] in G. and_split. use. apply x_seq_fa. assumption.
  - destruct a; try discriminate G. inversion H.
  - cbn [good] in G. and_split. use. split; [exact I|]. apply x_alt_fa. assumption.
  - cbn [good er] in *. destruct (calls G_Indicators a) eqn:E; [eapply inds_good; eassumption|]. cbn in G. and_split. use. split; [exact I|]. apply x_opt_fa. assumption.
  - cbn [lead er] in *. rewrite G. eapply inds_lead; eassumption.
  - cbn [good er] in *. rewrite (good_not_bahe _ G) in *. and_split. use. split; [exact I|]. apply x_loop_fa. assumption.
  - cbn [good] in G. and_split. use. split; [exact I|]. apply x_nt_fa. assumption.
  - cbn [good] in G. and_split. use. split; [exact I|]. apply x_na_fa. assumption.
  - cbn [good] in G. and_split. use. split; [exact I|]. eapply x_na_fa2; eassumption.
  - cbn [good] in G. and_split. use. split; [exact I|]. apply x_co_fa. assumption.
  - (* cut *) cbn [good] in G. and_split. use. split; [split; assumption|]. apply x_cut. assumption.
  - cbn [good] in G. and_split. use. split; [exact I|]. apply x_cut_fa. assumption.
  - cbn [good] in G. and_split. use. split; [exact I|]. apply x_cut_er. assumption.
Qed.
End Sim.

(** * The alphabet without quoting words and fu'e *)
Definition I_out : list Selmaho := S_Fuhe :: quoting.
Definition I_sg (s : Selmaho) : bool := negb (mem I_out s).
Definition I_st : list (status * bool) := Eval vm_compute in st_table I_sg 40.
Definition I_rx : list rx := Eval vm_compute in rx_table I_sg I_st.
Definition I_gset (x : cnt) : bool :=
  negb (existsb (is_nt x) [G_Bahe; G_Indicators; G_Indicator; G_BuInner; G_ZoiDelimiter; G_ZoiText]).
Lemma I_rx_table : I_rx = rx_table I_sg I_st.
Proof. vm_compute. reflexivity. Qed.
Lemma I_ok : table_ok I_sg I_st I_rx = true.
Proof. vm_compute. reflexivity. Qed.
Lemma I_root : simp I_sg (st_of I_st) (cf_of I_st) al_Root = XCall G_Text.
Proof. vm_compute. reflexivity. Qed.
Lemma I_good : forallb (fun x => negb (I_gset x) || good I_gset (rx_of I_rx x)) all_cnts = true.
Proof. vm_compute. reflexivity. Qed.
Lemma I_bahe : rx_of I_rx G_Bahe = XTok S_Bahe.
Proof. vm_compute. reflexivity. Qed.
Lemma I_inds : rx_of I_rx G_Indicators = XSeq (XCall G_Indicator) (XLoop (XCall G_Indicator)).
Proof. vm_compute. reflexivity. Qed.
Lemma I_ind : rx_of I_rx G_Indicator = XAlt (XAlt (XAlt (XAlt (XAlt (lone S_Ui) (lone S_Cai)) (lone S_Nai)) (lone S_Daho)) (lone S_Fuho)) (lone S_Y).
Proof. vm_compute. reflexivity. Qed.
Lemma I_text : lead I_gset (rx_of I_rx G_Text) = true.
Proof. vm_compute. reflexivity. Qed.

Lemma I_over toks : ~ quotes toks -> ~ contains S_Fuhe toks -> Forall (fun t => I_sg (selmaho t) = true) toks.
Proof.
  intros Hq Hf. apply Forall_forall. intros t Ht. unfold I_sg. apply negb_true_iff, mem_notin. intros [E|E].
  - apply Hf. exists t. auto.
  - apply Hq. exists (selmaho t). split; [exact E|]. exists t. auto.
Qed.

Lemma sim_text toks r : bahe_ok toks = true -> X (rx_of I_rx) (XCall G_Text) toks r ->
  X (tbl' (rx_of I_rx)) (XCall G_Text) (strip toks) (sr r).
Proof.
  intros Hb H.
  destruct (sim (rx_of I_rx) I_bahe I_inds I_ind I_gset eq_refl) with (e := XCall G_Text) (i := toks) (r := r) as (_ & P & _); try assumption.
  - intros x Hx. pose proof I_good as G. rewrite forallb_forall in G. specialize (G x (all_cnts_complete x)). rewrite Hx in G. exact G.
  - exact I_text.
  - apply P. reflexivity.
Qed.

Lemma strip_strip i : strip (strip i) = strip i.
Proof. unfold strip. induction i as [|t r IH]; [reflexivity|]. cbn [filter]. destruct (plain t) eqn:E; [cbn [filter]; rewrite E, IH; reflexivity|exact IH]. Qed.
Lemma strip_in t i : In t (strip i) -> In t i /\ plain t = true.
Proof. apply filter_In. Qed.
Lemma strip_bahe_ok i : bahe_ok (strip i) = true.
Proof.
  induction i as [|t r IH]; [reflexivity|]. unfold strip. cbn [filter]. destruct (plain t) eqn:E; [|exact IH]. cbn [bahe_ok].
  unfold plain in E. apply negb_true_iff, orb_false_iff in E as [_ ->]. exact IH.
Qed.

Theorem transparent toks : ~ quotes toks -> ~ contains S_Fuhe toks -> bahe_ok toks = true -> (accepted toks <-> accepted (strip toks)).
Proof.
  intros Hq Hf Hb. pose proof (I_over _ Hq Hf) as Ho.
  assert (Ho' : Forall (fun t => I_sg (selmaho t) = true) (strip toks)).
  { rewrite Forall_forall in *. intros t Ht. apply Ho. apply strip_in in Ht. tauto. }
  destruct (table_accepts _ _ _ _ I_rx_table I_ok I_root _ Ho) as [A (r & Hr)].
  destruct (table_accepts _ _ _ _ I_rx_table I_ok I_root _ Ho') as [A' (r' & Hr')].
  rewrite A, A'. pose proof (sim_text _ _ Hb Hr) as S. pose proof (sim_text _ _ (strip_bahe_ok _) Hr') as S'. rewrite strip_strip in S'.
  pose proof (X_det _ _ _ _ S _ S') as E.
  assert (Hn : forall q, sr q = Ok [] -> forall i, X (rx_of I_rx) (XCall G_Text) i q -> bahe_ok i = true -> q = Ok []).
  { intros q Eq i Hx Hbi. destruct q as [j| |]; try discriminate.
    destruct (sim (rx_of I_rx) I_bahe I_inds I_ind I_gset eq_refl) with (e := XCall G_Text) (i := i) (r := Ok j) as (_ & P & _); try assumption.
    - intros x Hg. pose proof I_good as G. rewrite forallb_forall in G. specialize (G x (all_cnts_complete x)). rewrite Hg in G. exact G.
    - exact I_text.
    - destruct (P eq_refl) as [[C _] _]. injection Eq as Eq. destruct (X_suffix _ _ _ _ Hx _ eq_refl) as (m & Hm). subst i. apply bahe_ok_suffix in Hbi.
      f_equal. clear -C Eq Hbi. destruct j as [|t j]; [reflexivity|exfalso].
      assert (W : forall l, bahe_ok l = true -> clean l = true -> strip l = [] -> l = []).
      { induction l as [|u l IH]; [reflexivity|]. intros H1 H2 H3. exfalso. unfold strip in H3. cbn [filter] in H3. destruct (plain u) eqn:Ep; [discriminate|].
        cbn [bahe_ok] in H1. apply andb_true_iff in H1 as [H1 H1']. unfold plain in Ep. apply negb_false_iff, orb_true_iff in Ep. unfold clean in H2. cbn [skipb] in H2.
        destruct (is_bahe u) eqn:Eb.
        - assert (l = []) as -> by (apply IH; assumption). discriminate.
        - destruct Ep as [Ep|Ep]; [|congruence]. rewrite Ep in H2. discriminate. }
      specialize (W _ Hbi C Eq). discriminate. }
  split; intros Hx.
  - pose proof (X_det _ _ _ _ Hr _ Hx) as ->. cbn in E. rewrite (Hn _ (eq_sym E) _ Hr' (strip_bahe_ok _)) in Hr'. exact Hr'.
  - pose proof (X_det _ _ _ _ Hr' _ Hx) as ->. cbn in E. rewrite (Hn _ E _ Hr Hb) in Hr. exact Hr.
Qed.

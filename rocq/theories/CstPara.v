(** CstPara.v -- sentences and paragraphs: what the parser does on [i ++ n :: b]
    compared with [i] and [b], for separators [n] (.i and ni'o). *)
From Verif Require Import Base Span Selmaho Lex Cst CstRules CstApi CstMeta CstTotal SpecCst SpecFragment CstTree CstBalance CstThms CstSimp CstIndic CstGen.
From Coq Require Import Lia Arith ZArith.

(** ** The parser always ends *)
Lemma table_total Sg tb rt e x i : rt = rx_table Sg tb -> table_ok Sg tb rt = true -> simp Sg (st_of tb) (cf_of tb) e = x -> x <> XBad ->
  wf cnn cnd CST_D e = true -> Forall (fun t => Sg (selmaho t) = true) i -> exists r, X (rx_of rt) x i r /\ (noerr cnn cne e = true -> r <> Er).
Proof.
  intros -> Hok Hr Hb Hw Hi. unfold table_ok in Hok. apply andb_true_iff in Hok as [Hok H3]. apply andb_true_iff in Hok as [H1 H2].
  assert (Hcf : forall x, cf_of tb x = true -> cutless (cf_of tb) (rx_of (rx_table Sg tb) x) = true).
  { intros y Hy. rewrite forallb_forall in H2. specialize (H2 y (all_cnts_complete y)). rewrite Hy in H2. exact H2. }
  assert (Ht : forall x, st_of tb x = SLive -> rx_of (rx_table Sg tb) x = residual Sg (st_of tb) (cf_of tb) x) by (intros; apply rx_table_ok).
  pose proof (grun_total _ _ _ _ _ cst_ok (CST_D * List.length i + need cnn cnd e)%nat e i Hw (Nat.le_refl _)) as Hn.
  pose proof (simp_agree Sg (st_of tb) (cf_of tb) _ Ht H1 Hcf (CST_D * List.length i + need cnn cnd e)%nat e i Hi) as A. rewrite Hr in A. specialize (A Hb). unfold agree in A. rewrite Hr in A.
  destruct (grun crule _ e i) eqn:E; [contradiction| | |]; eexists; (split; [exact A|]); try discriminate. intros Hne. destruct (noerr_run _ _ _ _ _ cst_ok _ _ _ _ Hne E).
Qed.

(** ** Static facts about the first word and about the words needed *)
Section Static.
Context (tbl : cnt -> rx).
(** on inputs that are empty or start with a word of [P]: [er] fails, [oo] fails or consumes nothing *)
Context (ter too : cnt -> bool) (P : Selmaho -> bool).
Fixpoint er (e : rx) : bool :=
  match e with
  | XFail => true
  | XTok s => negb (P s)
  | XCall x => ter x
  | XSeq a b => er a || (oo a && er b)
  | XAlt a b => er a && er b
  | XNotThen p a => oo p && er a
  | XNotAfter a _ => er a
  | XConsume a => oo a
  | _ => false
  end
with oo (e : rx) : bool :=
  match e with
  | XFail | XNil => true
  | XTok s => negb (P s)
  | XCall x => too x
  | XSeq a b => er a || (oo a && oo b)
  | XAlt a b => oo a && oo b
  | XOpt a | XLoop a | XConsume a => oo a
  | XNotThen p a => oo p && oo a
  | XNotAfter a p => oo a && oo p
  | _ => false
  end.
Context (Hter : forall x, ter x = true -> er (tbl x) = true) (Htoo : forall x, too x = true -> oo (tbl x) = true).
Definition heads (i : list token) : Prop := match i with t :: _ => P (selmaho t) = true | [] => True end.

Lemma first_ok e i r : X tbl e i r -> heads i -> (er e = true -> r = Er) /\ (oo e = true -> r = Er \/ r = Ok i).
Proof.
  induction 1; intros Hh; cbn [er oo];
    repeat match goal with
    | IH : heads ?i -> _, Hh : heads ?i |- _ => specialize (IH Hh); destruct IH as [? ?]
    end; (split; intros Hs; try discriminate Hs; auto);
    try (exfalso; unfold heads in Hh; subst; rewrite Hh in Hs; discriminate Hs);
    repeat match goal with
    | H : _ || _ = true |- _ => apply orb_true_iff in H as [H|H]
    | H : _ && _ = true |- _ => apply andb_true_iff in H as [? ?]
    | H1 : ?e = true, H2 : ?e = true -> Er = _ |- _ => specialize (H2 H1)
    | H1 : ?e = true, H2 : ?e = true -> _ |- _ => specialize (H2 H1)
    | H : _ \/ _ |- _ => destruct H as [H|H]
    | H : Ok _ = Ok _ |- _ => injection H as H; subst
    | H : _ = Er |- _ => discriminate H
    | H : _ = Ok _ |- _ => discriminate H
    | H : heads ?i -> _, Hh : heads ?i |- _ => specialize (H Hh); destruct H as [? ?]
    end; subst; auto; try contradiction; try discriminate; try congruence.
Qed.
End Static.

(** words of [l] that are needed: [nd], to succeed; [fn], to fail for good *)
Section Needs.
Context (tbl : cnt -> rx) (l : list Selmaho) (tnd tfn : cnt -> bool).
Fixpoint nds (e : rx) : bool :=
  match e with
  | XFail => true
  | XTok s => mem l s
  | XCall x => tnd x
  | XSeq a b => nds a || nds b
  | XAlt a b => nds a && nds b
  | XNotThen _ a | XNotAfter a _ | XConsume a | XCut a => nds a
  | _ => false
  end.
Fixpoint fns (e : rx) : bool :=
  match e with
  | XFail | XNil | XTok _ | XAny _ => true
  | XCall x => tfn x
  | XSeq a b | XNotAfter a b => fns a && (nds a || fns b)
  | XAlt a b | XNotThen a b => fns a && fns b
  | XOpt a | XLoop a | XConsume a => fns a
  | _ => false
  end.
Context (Hnd : forall x, tnd x = true -> nds (tbl x) = true) (Hfn : forall x, tfn x = true -> fns (tbl x) = true).
Definition some_of (i : list token) : Prop := exists t, In t i /\ In (selmaho t) l.
Lemma some_l a b : some_of a -> some_of (a ++ b).
Proof. intros (t & H & E). exists t. split; [apply in_or_app; auto|exact E]. Qed.
Lemma some_r a b : some_of b -> some_of (a ++ b).
Proof. intros (t & H & E). exists t. split; [apply in_or_app; auto|exact E]. Qed.

Lemma nds_ok e i r : X tbl e i r -> nds e = true -> forall j, r = Ok j -> exists m, i = m ++ j /\ some_of m.
Proof.
  intros H. induction H; cbn [nds]; intros Hs k0 Ek; try discriminate; try (injection Ek as <-); subst; eauto.
  - exists [t]. split; [reflexivity|]. exists t. split; [left; reflexivity|apply mem_in, Hs].
  - destruct (X_suffix _ _ _ _ H _ eq_refl) as (m1 & E1). destruct (X_suffix _ _ _ _ H0 _ eq_refl) as (m2 & E2).
    exists (m1 ++ m2). split; [subst; apply app_assoc|]. apply orb_true_iff in Hs as [Hs|Hs].
    + destruct (IHX1 Hs _ eq_refl) as (m & E & Hm). assert (m = m1) as -> by (eapply app_inv_tail; rewrite <- E; exact E1). apply some_l, Hm.
    + destruct (IHX2 Hs _ eq_refl) as (m & E & Hm). assert (m = m2) as -> by (eapply app_inv_tail; rewrite <- E; exact E2). apply some_r, Hm.
  - apply andb_true_iff in Hs as [Hs _]. eauto.
  - apply andb_true_iff in Hs as [_ Hs]. eauto.
Qed.
Lemma nds_some e i j : X tbl e i (Ok j) -> nds e = true -> some_of i.
Proof. intros H Hn. destruct (nds_ok _ _ _ H Hn _ eq_refl) as (m & -> & Hm). apply some_l, Hm. Qed.
Lemma fns_ok e i r : X tbl e i r -> fns e = true -> r = Fa -> some_of i.
Proof.
  intros H. induction H; cbn [fns]; intros Hs Er; try discriminate; subst; try (apply andb_true_iff in Hs as [Hs1 Hs2]); eauto.
  - apply orb_true_iff in Hs2 as [Hs2|Hs2]; [eapply nds_some; eassumption|]. destruct (X_suffix _ _ _ _ H _ eq_refl) as (m & ->). apply some_r. auto.
  - destruct (X_suffix _ _ _ _ H _ eq_refl) as (m & ->). apply some_r. auto.
  - apply orb_true_iff in Hs2 as [Hs2|Hs2]; [eapply nds_some; eassumption|]. destruct (X_suffix _ _ _ _ H _ eq_refl) as (m & ->). apply some_r. auto.
Qed.
End Needs.

(** ** Inside a group *)
Definition count (s : Selmaho) (i : list token) : Z := Z.of_nat (number_of [s] i).
Lemma count_cons s t i : count s (t :: i) = ((if sel_eqb (selmaho t) s then 1 else 0) + count s i)%Z.
Proof. unfold count, number_of. cbn [filter existsb]. rewrite orb_false_r. destruct (sel_eqb (selmaho t) s); cbn [List.length]; lia. Qed.
Lemma count_nil s : count s [] = 0%Z.
Proof. reflexivity. Qed.

Section Group.
Context (tbl : cnt -> rx) (g h : Selmaho) (Hgh : g <> h) (cs : cnt -> bool) (ext : list token).
Definition exc (i : list token) : Z := (count h i - count g i)%Z.
(** how many more [h] than [g] are consumed, at most; and at most on the way *)
Fixpoint up (e : rx) : Z :=
  match e with
  | XTok s => if sel_eqb s h then 1 else if sel_eqb s g then -1 else 0
  | XAny _ => 1
  | XSeq a b => up a + up b
  | XAlt a b => Z.max (up a) (up b)
  | XOpt a => Z.max 0 (up a)
  | XNotThen _ a | XNotAfter a _ | XConsume a | XCut a => up a
  | _ => 0
  end%Z.
Fixpoint mx (e : rx) : Z :=
  match e with
  | XSeq a b | XNotAfter a b => Z.max (mx a) (up a + mx b)
  | XAlt a b | XNotThen a b => Z.max (mx a) (mx b)
  | XOpt a | XLoop a | XConsume a | XCut a => mx a
  | _ => 0
  end%Z.
Fixpoint fine (e : rx) : bool :=
  match e with
  | XBad | XTill _ _ => false
  | XCall x => cs x
  | XSeq a b | XAlt a b | XNotThen a b | XNotAfter a b => fine a && fine b
  | XOpt a | XConsume a | XCut a => fine a
  | XLoop a => fine a && (up a <=? 0)%Z
  | _ => true
  end.
Definition inside (e : rx) : bool := fine e && (up e <=? 0)%Z && (mx e <=? 0)%Z.
Context (Hcs : forall x, cs x = true -> inside (tbl x) = true).
Lemma inside_spec e : inside e = true -> fine e = true /\ (up e <= 0)%Z /\ (mx e <= 0)%Z.
Proof. unfold inside. rewrite !andb_true_iff, !Z.leb_le. tauto. Qed.

Lemma up_ok e i r : X tbl e i r -> fine e = true -> forall j, r = Ok j -> (exc i - up e <= exc j)%Z.
Proof.
  intros H. induction H; cbn [fine up]; intros Hf k0 Ek; try discriminate; try (injection Ek as <-); subst; try lia;
    try (apply andb_true_iff in Hf as [Hf1 Hf2]).
  - unfold exc. rewrite !count_cons. destruct (sel_eqb (selmaho t) h) eqn:E1.
    + apply sel_eqb_eq in E1. destruct (sel_eqb (selmaho t) g) eqn:E2; [apply sel_eqb_eq in E2; congruence|lia].
    + destruct (sel_eqb (selmaho t) g); lia.
  - unfold exc. rewrite !count_cons. destruct (sel_eqb (selmaho t) h); destruct (sel_eqb (selmaho t) g); lia.
  - apply Hcs, inside_spec in Hf as (H1 & H2 & H3). specialize (IHX H1 _ eq_refl). lia.
  - specialize (IHX1 Hf1 _ eq_refl). specialize (IHX2 Hf2 _ eq_refl). lia.
  - specialize (IHX Hf1 _ eq_refl). lia.
  - specialize (IHX2 Hf2 _ eq_refl). lia.
  - specialize (IHX Hf _ eq_refl). lia.
  - assert (F : fine (XLoop a) = true) by (cbn [fine]; rewrite Hf1, Hf2; reflexivity). specialize (IHX1 Hf1 _ eq_refl). specialize (IHX2 F _ eq_refl). apply Z.leb_le in Hf2. cbn [up] in IHX2. lia.
  - specialize (IHX2 Hf2 _ eq_refl). lia.
  - specialize (IHX1 Hf1 _ eq_refl). lia.
  - specialize (IHX Hf _ eq_refl). lia.
  - specialize (IHX Hf _ eq_refl). lia.
Qed.

Definition ext_r (r : xres) : xres := match r with Ok j => Ok (j ++ ext) | r => r end.
Lemma exc_nonnil i : (1 <= exc i)%Z -> i <> [].
Proof. intros H ->. unfold exc in H. rewrite !count_nil in H. lia. Qed.
Lemma mx_pos e : (0 <= mx e)%Z.
Proof. induction e; cbn [mx]; lia. Qed.

Lemma nested e i r : X tbl e i r -> fine e = true -> (1 + mx e <= exc i)%Z -> X tbl e (i ++ ext) (ext_r r).
Proof.
  intros H. induction H; cbn [fine mx]; intros Hf He; try discriminate Hf; try (apply andb_true_iff in Hf as [Hf1 Hf2]); cbn [ext_r app] in *;
    try (exfalso; apply exc_nonnil in He; [congruence|exact tt]; fail);
    try (constructor; (assumption || congruence || (apply IHX; (assumption || lia))); fail).
  all: repeat match goal with A : X tbl ?a ?i (Ok ?j), F : fine ?a = true |- _ =>
         lazymatch goal with _ : (exc i - up a <= exc j)%Z |- _ => fail | _ => pose proof (up_ok _ _ _ A F _ eq_refl) end end.
  { exfalso. apply exc_nonnil in He. congruence. }
  { exfalso. apply exc_nonnil in He. congruence. }
  { constructor. apply Hcs, inside_spec in Hf as (H1 & H2 & H3). apply IHX; [exact H1|]. pose proof (mx_pos (tbl x)). lia. }
  all: try (apply Z.leb_le in Hf2 as Hu).
  all: solve [eapply x_seq; [apply IHX1; (assumption || lia)|apply IHX2; (assumption || lia)]
    | eapply x_loop_more; [apply IHX1; (assumption || lia)|rewrite !app_length; lia|apply IHX2; [cbn [fine]; rewrite Hf1, Hf2; reflexivity|cbn [mx]; lia]]
    | eapply x_loop_stuck; [apply IHX; (assumption || lia)|rewrite !app_length; lia]
    | eapply x_co_stuck; [apply IHX; (assumption || lia)|rewrite !app_length; lia]
    | eapply x_co; [apply IHX; (assumption || lia)|rewrite !app_length; lia]
    | eapply x_na_hit; [apply IHX1|apply IHX2]; (assumption || lia)
    | eapply x_na_fa2; [apply IHX1|apply IHX2]; (assumption || lia)
    | apply x_alt_r; [apply IHX1|apply IHX2]; (assumption || lia)
    | apply x_nt; [apply IHX1|apply IHX2]; (assumption || lia)
    | apply x_na; [apply IHX1|apply IHX2]; (assumption || lia)
    | econstructor; first [apply IHX|apply IHX1|apply IHX2]; (assumption || lia)].
Qed.
End Group.

(** ** Before a separator *)
Lemma closes_suffix m j : closes (m ++ j) -> closes j.
Proof. intros H o c m' r Hp ->. apply (H o c (m ++ m') r Hp). apply app_assoc. Qed.

Section Top.
Context (tbl : cnt -> rx) (n : token) (b : list token) (cs ns : cnt -> bool) (sep : Selmaho) (Hsep : selmaho n = sep) (specials : list rx).
Notation ext := (n :: b).
Definition partner (s : Selmaho) : option Selmaho := match find (fun p => sel_eqb (fst p) s) groups with Some p => Some (snd p) | None => None end.
Fixpoint nice (e : rx) : bool :=
  match e with
  | XFail | XNil => true
  | XTok s => negb (sel_eqb s sep)
  | XCall x => ns x
  | XSeq a d =>
      match a, d with
      | XTok s, _ =>
          if sel_eqb s sep then existsb (rx_eqb d) specials && nice d
          else match partner s with
               | Some h => match d with XSeq c d' => inside s h cs c && nice d' | _ => false end
               | None => nice d
               end
      | XSeq (XTok s) f, XSeq c d' =>
          match partner s with
          | Some h => negb (sel_eqb s sep) && inside s h cs f && inside s h cs c && nice d'
          | None => nice a && nice d
          end
      | _, _ => nice a && nice d
      end
  | XAlt a d | XNotThen a d | XNotAfter a d => nice a && nice d
  | XOpt a | XLoop a | XConsume a | XCut a => nice a
  | XBad | XAny _ | XTill _ _ => false
  end.

Context (Hcs : forall s h x, partner s = Some h -> cs x = true -> inside s h cs (tbl x) = true)
  (Hns : forall x, ns x = true -> nice (tbl x) = true)
  (Hspec : forall d, In d specials -> X tbl (XSeq (XTok sep) d) ext Er).

Lemma partner_in s h : partner s = Some h -> In (s, h) groups /\ s <> h.
Proof.
  unfold partner, groups. cbn [find fst snd]. 
  destruct (sel_eqb S_Lu s) eqn:E1; [apply sel_eqb_eq in E1 as <-; intros E; injection E as <-; split; [cbn; auto|discriminate]|].
  destruct (sel_eqb S_To s) eqn:E2; [apply sel_eqb_eq in E2 as <-; intros E; injection E as <-; split; [cbn; auto|discriminate]|].
  destruct (sel_eqb S_Tuhe s) eqn:E3; [apply sel_eqb_eq in E3 as <-; intros E; injection E as <-; split; [cbn; auto|discriminate]|]. discriminate.
Qed.
Lemma opened s h t i : partner s = Some h -> selmaho t = s -> closes (t :: i) -> (1 <= exc s h i)%Z.
Proof.
  intros Hp Et Hc. apply partner_in in Hp as [Hp Hn]. specialize (Hc s h [] (t :: i) Hp eq_refl).
  pose proof (count_cons s t i) as C1. pose proof (count_cons h t i) as C2. unfold exc. rewrite Et, sel_eqb_refl in C1.
  destruct (sel_eqb (selmaho t) h) eqn:E; [apply sel_eqb_eq in E; congruence|]. unfold count in *. lia.
Qed.

Lemma nice_seq a d : nice (XSeq a d) = true ->
  (a = XTok sep /\ In d specials /\ nice d = true) \/
  (exists s h c d', a = XTok s /\ s <> sep /\ partner s = Some h /\ d = XSeq c d' /\ inside s h cs c = true /\ nice d' = true) \/
  (exists s h f c d', a = XSeq (XTok s) f /\ s <> sep /\ partner s = Some h /\ d = XSeq c d' /\ inside s h cs f = true /\ inside s h cs c = true /\ nice d' = true) \/
  (nice a = true /\ nice d = true).
Proof.
  intros H. destruct a; try (right; right; right; apply andb_true_iff; exact H).
  - cbn [nice] in H. destruct (sel_eqb s sep) eqn:Es.
    + apply sel_eqb_eq in Es as ->. left. apply andb_true_iff in H as [H1 H2]. apply existsb_exists in H1 as (d' & Hd & E). apply rx_eqb_eq in E as <-. auto.
    + destruct (partner s) as [h|] eqn:Ep; [|right; right; right; cbn [nice]; rewrite Es; auto].
      destruct d; try discriminate. right; left. apply andb_true_iff in H as [H1 H2]. exists s, h, d1, d2. repeat split; auto. apply sel_eqb_neq, Es.
  - destruct a1; try (right; right; right; apply andb_true_iff; exact H).
    destruct d; try (right; right; right; apply andb_true_iff; exact H).
    remember (XSeq (XTok s) a2) as aa. remember (XSeq d1 d2) as dd. cbn [nice] in H. rewrite Heqaa, Heqdd in H. destruct (partner s) as [h|] eqn:Ep.
    + right; right; left. repeat (apply andb_true_iff in H as [H ?]). exists s, h, a2, d1, d2. repeat split; auto. apply sel_eqb_neq, negb_true_iff; assumption.
    + right; right; right. apply andb_true_iff in H. subst. exact H.
Qed.

Definition Q1 e i r := nice e = true -> closes i -> X tbl e (i ++ ext) (ext_r ext r).
Definition Q2 e i r := forall s h c d, partner s = Some h -> e = XSeq c d -> inside s h cs c = true -> nice d = true -> closes i -> (1 <= exc s h i)%Z -> X tbl e (i ++ ext) (ext_r ext r).

Lemma inner s h e i r : partner s = Some h -> X tbl e i r -> inside s h cs e = true -> (1 <= exc s h i)%Z ->
  X tbl e (i ++ ext) (ext_r ext r) /\ (forall j, r = Ok j -> (1 <= exc s h j)%Z).
Proof.
  intros Hp H Hi He. apply inside_spec in Hi as (H1 & H2 & H3). apply partner_in in Hp as Hp'. destruct Hp' as [_ Hne]. split.
  - eapply nested with (g := s) (h := h) (cs := cs); eauto. lia.
  - intros j ->. pose proof (up_ok tbl s h Hne cs (fun x => Hcs s h x Hp) _ _ _ H H1 _ eq_refl). lia.
Qed.
Lemma tok_no s i : s <> sep -> X tbl (XTok s) i Er -> X tbl (XTok s) (i ++ ext) Er.
Proof. intros Hs H. inversion H; subst; [constructor; assumption|]. apply x_tok_no. congruence. Qed.

Lemma tok_group s h f i r : partner s = Some h -> s <> sep -> inside s h cs f = true -> closes i -> X tbl (XSeq (XTok s) f) i r ->
  X tbl (XSeq (XTok s) f) (i ++ ext) (ext_r ext r) /\ (forall j, r = Ok j -> (1 <= exc s h j)%Z).
Proof.
  intros Hp Hs Hf Hc H. inversion H; subst.
  - match goal with H : X tbl (XTok s) _ _ |- _ => inversion H; subst end.
    match goal with H : X tbl f ?j _ |- _ => destruct (inner (selmaho t) h f j r Hp H Hf) as [A B] end; [eapply opened; eauto|].
    split; [|exact B]. eapply x_seq; [constructor; reflexivity|exact A].
  - split; [|discriminate]. apply x_seq_no. apply tok_no; assumption.
  - match goal with H : X tbl (XTok s) _ Fa |- _ => inversion H end.
Qed.

Lemma closes_ok e i j : X tbl e i (Ok j) -> closes i -> closes j.
Proof. intros H. destruct (X_suffix _ _ _ _ H _ eq_refl) as (m & ->). apply closes_suffix. Qed.

Ltac cls := first [assumption | eapply closes_ok; eassumption].
Theorem before e i r : X tbl e i r -> Q1 e i r /\ Q2 e i r.
Proof.
  intros H. pose proof H as HX. revert HX. induction H; intros HX;
    repeat match goal with
    | H : X tbl ?a ?i ?r, IH : X tbl ?a ?i ?r -> _ |- _ => specialize (IH H); destruct IH as [? ?]
    end;
    (split; [intros Hn Hc|intros s0 h0 c0 d0 Hp Ee Hi Hd Hc He; try discriminate Ee; injection Ee as -> ->]).
  all: try (apply nice_seq in Hn as [(-> & Hd & Hn)|[(s & h & c & d & -> & Hs & Hp & -> & Hi & Hn)|[(s & h & f & c & d & -> & Hs & Hp & -> & Hf & Hi & Hn)|[Hn1 Hn2]]]]).
  all: try (cbn [nice] in Hn; try discriminate Hn; try (apply andb_true_iff in Hn as [Hn1 Hn2])).
  all: try match goal with H : X tbl (XTok _) _ Fa |- _ => inversion H end.
  all: repeat match goal with
    | H : Q1 ?a ?i ?r, N : nice ?a = true |- _ => specialize (H N ltac:(cls)); cbn [ext_r] in H
    end; cbn [ext_r].
  all: try solve [econstructor; eassumption].
  - apply (tok_no s []); [apply sel_eqb_neq, negb_true_iff; exact Hn|constructor].
  - constructor. auto.
  - (* sequences *) inversion H; subst. eapply x_seq; [constructor; congruence|eassumption].
  - inversion H; subst. eapply x_seq; [constructor; reflexivity|].
    match goal with Q : Q2 (XSeq c d) _ _ |- _ => apply (Q (selmaho t) h c d); auto; [eapply closes_suffix with (m := [t]); exact Hc|eapply opened; eauto] end.
  - destruct (tok_group s h f i (Ok j)) as [A B]; auto. eapply x_seq; [exact A|].
    match goal with Q : Q2 (XSeq c d) _ _ |- _ => apply (Q s h c d); auto; cls end.
  - destruct (inner s0 h0 c0 i (Ok j)) as [A B]; auto. eapply x_seq; [exact A|].
    assumption.
  - inversion H; subst; [apply x_seq_no; constructor; congruence|apply Hspec, Hd].
  - apply x_seq_no, tok_no; assumption.
  - apply x_seq_no. exact (proj1 (tok_group s h f i Er Hp Hs Hf Hc H)).
  - apply x_seq_no. exact (proj1 (inner s0 h0 c0 i Er Hp H Hi He)).
  - (* loops *) eapply x_loop_more; [eassumption|rewrite !app_length; lia|]. match goal with Q : Q1 (XLoop a) _ _ |- _ => apply Q; [exact Hn|cls] end.
  - eapply x_loop_stuck; [eassumption|rewrite !app_length; lia].
  - eapply x_co_stuck; [eassumption|rewrite !app_length; lia].
  - eapply x_co; [eassumption|rewrite !app_length; lia].
  - apply x_seq_fa. exact (proj1 (tok_group s h f i Fa Hp Hs Hf Hc H)).
  - apply x_seq_fa. exact (proj1 (inner s0 h0 c0 i Fa Hp H Hi He)).
Qed.
End Top.

(** ** The tables *)
Definition Y_bad : list Selmaho := [S_Faho; S_Fuhe] ++ coloring ++ quoting.
Definition Y_sg (s : Selmaho) : bool := negb (mem Y_bad s).
Definition Y_st : list (status * bool) := Eval vm_compute in st_table Y_sg 40.
Definition Y_rx : list rx := Eval vm_compute in rx_table Y_sg Y_st.
Lemma Y_rx_table : Y_rx = rx_table Y_sg Y_st.
Proof. vm_cast_no_check (eq_refl Y_rx). Qed.
Lemma Y_ok : table_ok Y_sg Y_st Y_rx = true.
Proof. vm_cast_no_check (eq_refl true). Qed.
Lemma Y_root : simp Y_sg (st_of Y_st) (cf_of Y_st) al_Root = XCall G_Text.
Proof. vm_cast_no_check (eq_refl (XCall G_Text)). Qed.
Notation Y := (X (rx_of Y_rx)).

Definition bt (tb : list bool) (x : cnt) : bool := nth (cnt_idx x) tb false.
Definition all_true : list bool := map (fun _ => true) all_cnts.
Definition Y_cs (x : cnt) : bool := negb (existsb (is_nt x) [G_BuInner; G_ZoiDelimiter; G_ZoiText]).
Definition Y_rest (x : cnt) : rx := match rx_of Y_rx x with XSeq _ b => b | e => e end.
Definition Y_specials : list rx := [Y_rest G_ConnectedSentenceSeparator; Y_rest G_CloseSentenceSeparator].
Definition Y_ns (sep : Selmaho) (specials : list rx) : list bool :=
  CstTotal.iter 40 (fun tb => map (fun x => nice Y_cs (bt tb) sep specials (rx_of Y_rx x)) all_cnts) all_true.
Definition Y_erl (P : Selmaho -> bool) : list bool * list bool :=
  CstTotal.iter 40 (fun tb => (map (fun x => er (bt (fst tb)) (bt (snd tb)) P (rx_of Y_rx x)) all_cnts, map (fun x => oo (bt (fst tb)) (bt (snd tb)) P (rx_of Y_rx x)) all_cnts)) (all_true, all_true).

Definition Y_ns_I : list bool := Eval vm_compute in Y_ns S_I Y_specials.
Definition Y_ns_N : list bool := Eval vm_compute in Y_ns S_Niho [].
Definition Y_er_N : list bool * list bool := Eval vm_compute in Y_erl (mem [S_Niho]).
Definition Y_check : bool :=
  forallb (fun p => forallb (fun x => implb (Y_cs x) (inside (fst p) (snd p) Y_cs (rx_of Y_rx x))) all_cnts) groups &&
  forallb (fun x => implb (bt Y_ns_I x) (nice Y_cs (bt Y_ns_I) S_I Y_specials (rx_of Y_rx x))) all_cnts &&
  forallb (fun x => implb (bt Y_ns_N x) (nice Y_cs (bt Y_ns_N) S_Niho [] (rx_of Y_rx x))) all_cnts &&
  forallb (fun x => implb (bt (fst Y_er_N) x) (er (bt (fst Y_er_N)) (bt (snd Y_er_N)) (mem [S_Niho]) (rx_of Y_rx x))) all_cnts &&
  forallb (fun x => implb (bt (snd Y_er_N) x) (oo (bt (fst Y_er_N)) (bt (snd Y_er_N)) (mem [S_Niho]) (rx_of Y_rx x))) all_cnts.
Lemma Y_checked : Y_check = true.
Proof. vm_compute. reflexivity. Qed.
Lemma forallb_impl {A} (f g : A -> bool) l : forallb (fun x => implb (f x) (g x)) l = true -> forall x, In x l -> f x = true -> g x = true.
Proof. rewrite forallb_forall. intros H x Hx Hf. specialize (H x Hx). rewrite Hf in H. exact H. Qed.
Lemma Y_groups s h x : partner s = Some h -> Y_cs x = true -> inside s h Y_cs (rx_of Y_rx x) = true.
Proof.
  intros Hp. apply partner_in in Hp as [Hp _]. pose proof Y_checked as H. unfold Y_check in H. do 4 apply andb_true_iff in H as [H _].
  rewrite forallb_forall in H. specialize (H _ Hp). exact (forallb_impl _ _ _ H x (all_cnts_complete x)).
Qed.
Lemma Y_nice_I x : bt Y_ns_I x = true -> nice Y_cs (bt Y_ns_I) S_I Y_specials (rx_of Y_rx x) = true.
Proof. pose proof Y_checked as H. unfold Y_check in H. do 3 apply andb_true_iff in H as [H _]. apply andb_true_iff in H as [_ H]. exact (forallb_impl _ _ _ H x (all_cnts_complete x)). Qed.
Lemma Y_nice_N x : bt Y_ns_N x = true -> nice Y_cs (bt Y_ns_N) S_Niho [] (rx_of Y_rx x) = true.
Proof. pose proof Y_checked as H. unfold Y_check in H. do 2 apply andb_true_iff in H as [H _]. apply andb_true_iff in H as [_ H]. exact (forallb_impl _ _ _ H x (all_cnts_complete x)). Qed.
Lemma Y_er_ok x : bt (fst Y_er_N) x = true -> er (bt (fst Y_er_N)) (bt (snd Y_er_N)) (mem [S_Niho]) (rx_of Y_rx x) = true.
Proof. pose proof Y_checked as H. unfold Y_check in H. do 1 apply andb_true_iff in H as [H _]. apply andb_true_iff in H as [_ H]. exact (forallb_impl _ _ _ H x (all_cnts_complete x)). Qed.
Lemma Y_oo_ok x : bt (snd Y_er_N) x = true -> oo (bt (fst Y_er_N)) (bt (snd Y_er_N)) (mem [S_Niho]) (rx_of Y_rx x) = true.
Proof. pose proof Y_checked as H. unfold Y_check in H. apply andb_true_iff in H as [_ H]. exact (forallb_impl _ _ _ H x (all_cnts_complete x)). Qed.

(** ** The top of the grammar *)
Definition Y_over (i : list token) : Prop := Forall (fun t => Y_sg (selmaho t) = true) i.
Notation Frees := (XCall G_Frees). Notation PI := (XCall G_ParagraphItem). Notation SS := (XCall G_SentenceSeparator). Notation PS := (XCall G_ParagraphSeparator). Notation Par := (XCall G_Paragraph).
Definition L : rx := XLoop (XSeq SS PI).
Definition T : rx := XLoop (XSeq PS Par).
Lemma Y_Text : rx_of Y_rx G_Text = XSeq Frees (XSeq (XOpt PS) (XOpt (XCall G_Paragraphs))). Proof. vm_compute. reflexivity. Qed.
Lemma Y_Paragraphs : rx_of Y_rx G_Paragraphs = XSeq Par T. Proof. vm_compute. reflexivity. Qed.
Lemma Y_Paragraph : rx_of Y_rx G_Paragraph = XSeq (XOpt SS) (XSeq PI L). Proof. vm_compute. reflexivity. Qed.
Lemma Y_SS : rx_of Y_rx G_SentenceSeparator = XSeq (XTok S_I) Frees. Proof. vm_compute. reflexivity. Qed.
Lemma Y_PS : rx_of Y_rx G_ParagraphSeparator = XSeq (XSeq (XTok S_Niho) (XLoop (XTok S_Niho))) Frees. Proof. vm_compute. reflexivity. Qed.
Lemma Y_PI : exists a, rx_of Y_rx G_ParagraphItem = XAlt a XNil. Proof. eexists. vm_compute. reflexivity. Qed.

Lemma Y_total x i : Y_over i -> rx_of Y_rx x <> XBad -> match st_of Y_st x with SLive => true | _ => false end = true -> exists r, Y (XCall x) i r /\ (cne x = true -> r <> Er).
Proof.
  intros Hi Hb Hs. destruct (table_total _ _ _ (GCall x) (XCall x) i Y_rx_table Y_ok) as (r & Hr & He); auto.
  - cbn [simp]. destruct (st_of Y_st x); try discriminate. reflexivity.
  - discriminate.
  - cbn [wf need andb]. rewrite andb_true_r. apply Nat.leb_le. destruct (cst_ok x) as (_ & _ & H & Hw). 
    assert (forallb (fun y => Nat.leb (S (cnd y)) CST_D) all_cnts = true) as A by (vm_compute; reflexivity). rewrite forallb_forall in A. apply Nat.leb_le, A, all_cnts_complete.
  - eauto.
Qed.
Lemma frees_total i : Y_over i -> exists r, Y Frees i r /\ r <> Er.
Proof. intros Hi. destruct (Y_total G_Frees i Hi) as (r & H1 & H2); [vm_compute; discriminate|reflexivity|]. exists r. split; [exact H1|apply H2; reflexivity]. Qed.
Lemma item_total i : Y_over i -> exists r, Y PI i r /\ r <> Er.
Proof. intros Hi. destruct (Y_total G_ParagraphItem i Hi) as (r & H1 & H2); [vm_compute; discriminate|reflexivity|]. exists r. split; [exact H1|apply H2; reflexivity]. Qed.

(** the rest after an item; an item and the rest; the same after a separator *)
Definition Fin (d : list token) : Prop := Y (XSeq L T) d (Ok []).
Definition Itm (c : list token) : Prop := exists d, Y PI c (Ok d) /\ Fin d.
Definition Aft (x : list token) : Prop := exists c, Y Frees x (Ok c) /\ Itm c.
Definition Txt (x : list token) : Prop := Y (XCall G_Text) x (Ok []).

Lemma X_seq_inv tbl a b i j : X tbl (XSeq a b) i (Ok j) -> exists k, X tbl a i (Ok k) /\ X tbl b k (Ok j).
Proof. intros H. inversion H; subst. eauto. Qed.
Lemma X_opt_inv tbl a i j : X tbl (XOpt a) i (Ok j) -> X tbl a i (Ok j) \/ (j = i /\ X tbl a i Er).
Proof. intros H. inversion H; subst; auto. Qed.
Lemma X_tok_inv tbl s i j : X tbl (XTok s) i (Ok j) -> exists u, i = u :: j /\ selmaho u = s.
Proof. intros H. inversion H; subst. eauto. Qed.
Lemma X_loop_inv tbl a i j : X tbl (XLoop a) i (Ok j) -> (j = i /\ X tbl a i Er) \/ exists k, X tbl a i (Ok k) /\ List.length k <> List.length i /\ X tbl (XLoop a) k (Ok j).
Proof. intros H. inversion H; subst; eauto 8. Qed.
Lemma X_call_inv tbl x i r : X tbl (XCall x) i r -> X tbl (tbl x) i r.
Proof. intros H. inversion H; subst. assumption. Qed.
Lemma X_len tbl e i j : X tbl e i (Ok j) -> (List.length j <= List.length i)%nat.
Proof. intros H. destruct (X_suffix _ _ _ _ H _ eq_refl) as (m & ->). rewrite app_length. lia. Qed.
Ltac step H := first [apply X_seq_inv in H | apply X_call_inv in H].
Definition is_sep (s : Selmaho) (i : list token) : Prop := match i with t :: _ => selmaho t = s | [] => False end.
Lemma sep_dec s i : is_sep s i \/ ~ is_sep s i.
Proof. destruct i as [|t i]; cbn; [auto|]. destruct (sel_eqb (selmaho t) s) eqn:E; [left; apply sel_eqb_eq, E|right; apply sel_eqb_neq, E]. Qed.
Lemma tok_er tbl s i : ~ is_sep s i -> X tbl (XTok s) i Er.
Proof. destruct i; intros H; constructor. exact H. Qed.
Lemma SS_er i : ~ is_sep S_I i -> Y SS i Er.
Proof. intros H. apply x_call. rewrite Y_SS. apply x_seq_no, tok_er, H. Qed.
Lemma PS_er i : ~ is_sep S_Niho i -> Y PS i Er.
Proof. intros H. apply x_call. rewrite Y_PS. apply x_seq_no, x_seq_no, tok_er, H. Qed.
Lemma SS_ok t i c : selmaho t = S_I -> (Y SS (t :: i) (Ok c) <-> Y Frees i (Ok c)).
Proof.
  intros Et. split; intros H.
  - apply X_call_inv in H. rewrite Y_SS in H. apply X_seq_inv in H as (k & H1 & H2). apply X_tok_inv in H1 as (u & E & _). injection E as -> ->. exact H2.
  - apply x_call. rewrite Y_SS. eapply x_seq; [constructor; exact Et|exact H].
Qed.
Lemma SS_no t i : selmaho t = S_I -> Y_over i -> ~ Y SS (t :: i) Er.
Proof.
  intros Et Hi H. apply X_call_inv in H. rewrite Y_SS in H. inversion H; subst.
  - match goal with H : X _ (XTok _) _ _ |- _ => apply X_tok_inv in H as (u & E & _); injection E as -> -> end.
    destruct (frees_total _ Hi) as (r & H1 & H2). match goal with H : X _ Frees _ Er |- _ => pose proof (X_det _ _ _ _ H _ H1) end. congruence.
  - match goal with H : X _ (XTok _) _ _ |- _ => inversion H; congruence end.
Qed.
Lemma over_cons t i : Y_over (t :: i) -> Y_over i.
Proof. inversion 1; assumption. Qed.
Lemma over_ok e i j : Y e i (Ok j) -> Y_over i -> Y_over j.
Proof. intros H. destruct (X_suffix _ _ _ _ H _ eq_refl) as (m & ->). unfold Y_over. rewrite Forall_app. tauto. Qed.

(** the empty text, and words that end an item *)
Lemma frees_stay i : (forall t r, i = t :: r -> selmaho t = S_Niho) -> Y_over i -> Y Frees i (Ok i).
Proof.
  intros Hi Ho. destruct (frees_total _ Ho) as (r & H1 & H2).
  destruct (first_ok (rx_of Y_rx) (bt (fst Y_er_N)) (bt (snd Y_er_N)) (mem [S_Niho]) Y_er_ok Y_oo_ok _ _ _ H1) as [_ A].
  - destruct i as [|t i]; [exact I|]. cbn. rewrite (Hi t i eq_refl). reflexivity.
  - destruct A as [A|A]; [reflexivity|congruence|]. subst. exact H1.
Qed.
Lemma item_stay i : (forall t r, i = t :: r -> selmaho t = S_Niho) -> Y_over i -> Y PI i (Ok i).
Proof.
  intros Hi Ho. destruct (item_total _ Ho) as (r & H1 & H2).
  destruct (first_ok (rx_of Y_rx) (bt (fst Y_er_N)) (bt (snd Y_er_N)) (mem [S_Niho]) Y_er_ok Y_oo_ok _ _ _ H1) as [_ A].
  - destruct i as [|t i]; [exact I|]. cbn. rewrite (Hi t i eq_refl). reflexivity.
  - destruct A as [A|A]; [reflexivity|congruence|]. subst. exact H1.
Qed.
Lemma niho_head t i : selmaho t = S_Niho -> forall u r, t :: i = u :: r -> selmaho u = S_Niho.
Proof. intros E u r H. injection H as <- <-. exact E. Qed.

Lemma L_stay i : ~ is_sep S_I i -> Y L i (Ok i).
Proof. intros H. apply x_loop_end, x_seq_no, SS_er, H. Qed.
Lemma T_stay i : ~ is_sep S_Niho i -> Y T i (Ok i).
Proof. intros H. apply x_loop_end, x_seq_no, PS_er, H. Qed.
Lemma Fin_nil : Fin [].
Proof. eapply x_seq; [apply L_stay|apply T_stay]; exact (fun H => H). Qed.
Lemma Fin_I t x : selmaho t = S_I -> (Fin (t :: x) <-> Aft x).
Proof.
  intros Et. split.
  - intros H. apply X_seq_inv in H as (k & H1 & H2). apply X_loop_inv in H1 as [[-> H1]|(j & H1 & Hl & H3)].
    + assert (Y T (t :: x) (Ok (t :: x))) as H3 by (apply T_stay; cbn; rewrite Et; discriminate). pose proof (X_det _ _ _ _ H2 _ H3). discriminate.
    + apply X_seq_inv in H1 as (c & H1 & H4). apply (SS_ok _ _ _ Et) in H1. exists c. split; [exact H1|]. exists j. split; [exact H4|]. eapply x_seq; eassumption.
  - intros (c & H1 & d & H2 & H3). apply X_seq_inv in H3 as (k & H3 & H4). eapply x_seq; [|exact H4]. eapply x_loop_more; [|  |exact H3].
    + eapply x_seq; [|exact H2]. apply SS_ok; assumption.
    + apply X_len in H1, H2. cbn [List.length]. lia.
Qed.
Lemma Fin_other t x : selmaho t <> S_I -> selmaho t <> S_Niho -> ~ Fin (t :: x).
Proof.
  intros H1 H2 H. assert (Fin' : Y (XSeq L T) (t :: x) (Ok (t :: x))) by (eapply x_seq; [apply L_stay; exact H1|apply T_stay; exact H2]).
  pose proof (X_det _ _ _ _ H _ Fin'). discriminate.
Qed.

(** a paragraph and the rest *)
Definition Pgs (c : list token) : Prop := Y (XSeq Par T) c (Ok []).
Lemma Pgs_I t y : selmaho t = S_I -> Y_over y -> (Pgs (t :: y) <-> Aft y).
Proof.
  intros Et Ho. split.
  - intros H. apply X_seq_inv in H as (k & H1 & H2). apply X_call_inv in H1. rewrite Y_Paragraph in H1. apply X_seq_inv in H1 as (c & H1 & H3). apply X_seq_inv in H3 as (d & H3 & H4).
    apply X_opt_inv in H1 as [H1|[_ H1]]; [|destruct (SS_no _ _ Et Ho H1)]. apply (SS_ok _ _ _ Et) in H1. exists c. split; [exact H1|]. exists d. split; [exact H3|]. eapply x_seq; eassumption.
  - intros (c & H1 & d & H3 & H4). apply X_seq_inv in H4 as (k & H4 & H5). eapply x_seq; [|exact H5]. apply x_call. rewrite Y_Paragraph. eapply x_seq; [|eapply x_seq; eassumption].
    apply x_opt. apply SS_ok; assumption.
Qed.
Lemma Pgs_other c : ~ is_sep S_I c -> (Pgs c <-> Itm c).
Proof.
  intros Hc. split.
  - intros H. apply X_seq_inv in H as (k & H1 & H2). apply X_call_inv in H1. rewrite Y_Paragraph in H1. apply X_seq_inv in H1 as (c' & H1 & H3). apply X_seq_inv in H3 as (d & H3 & H4).
    assert (c' = c) as ->. { apply X_opt_inv in H1 as [H1|[-> _]]; [|reflexivity]. pose proof (X_det _ _ _ _ H1 _ (SS_er _ Hc)). discriminate. }
    exists d. split; [exact H3|]. eapply x_seq; eassumption.
  - intros (d & H3 & H4). apply X_seq_inv in H4 as (k & H4 & H5). eapply x_seq; [|exact H5]. apply x_call. rewrite Y_Paragraph. eapply x_seq; [|eapply x_seq; eassumption].
    apply x_opt_no, SS_er, Hc.
Qed.
Lemma Pgs_nil : Pgs [].
Proof. apply Pgs_other; [exact (fun H => H)|]. exists []. split; [apply item_stay; [discriminate|constructor]|apply Fin_nil]. Qed.
Lemma not_both t : selmaho t = S_Niho -> ~ is_sep S_I [t].
Proof. intros E. cbn. rewrite E. discriminate. Qed.
Lemma Par_niho t x : selmaho t = S_Niho -> Y_over (t :: x) -> Y Par (t :: x) (Ok (t :: x)).
Proof.
  intros Et Ho. assert (~ is_sep S_I (t :: x)) as N by (cbn; rewrite Et; discriminate). apply x_call. rewrite Y_Paragraph. eapply x_seq; [apply x_opt_no, SS_er, N|].
  eapply x_seq; [apply item_stay; [apply niho_head, Et|exact Ho]|apply L_stay, N].
Qed.

Lemma Txt_Pgs x : Y_over x -> (Txt x <-> exists c, Y Frees x (Ok c) /\ Pgs c).
Proof.
  intros Ho. split.
  - intros H. apply X_call_inv in H. rewrite Y_Text in H. apply X_seq_inv in H as (c & H1 & H). exists c. split; [exact H1|].
    pose proof (over_ok _ _ _ H1 Ho) as Hc. apply X_seq_inv in H as (c' & H2 & H3). apply X_opt_inv in H2 as [H2|[-> H2]].
    + apply X_opt_inv in H3 as [H3|[<- H3]].
      * apply X_call_inv in H3. rewrite Y_Paragraphs in H3. apply X_seq_inv in H3 as (d & H3 & H4).
        destruct (sep_dec S_Niho c) as [N|N]; [|pose proof (X_det _ _ _ _ H2 _ (PS_er _ N)); discriminate].
        destruct c as [|t c]; [destruct N|]. cbn in N. eapply x_seq; [apply Par_niho; assumption|]. eapply x_loop_more; [eapply x_seq; eassumption| |exact H4].
        assert (L1 : (List.length c' < List.length (t :: c))%nat).
        { apply X_call_inv in H2. rewrite Y_PS in H2. apply X_seq_inv in H2 as (k & H2 & H5). apply X_seq_inv in H2 as (k' & H2 & H6). apply X_tok_inv in H2 as (u & E & _). injection E as -> ->. apply X_len in H5, H6. cbn. lia. }
        apply X_len in H3. lia.
      * exfalso. pose proof Pgs_nil as P. assert (Y (XCall G_Paragraphs) [] (Ok [])) as P' by (apply x_call; rewrite Y_Paragraphs; exact P). pose proof (X_det _ _ _ _ H3 _ P'). discriminate.
    + apply X_opt_inv in H3 as [H3|[<- H3]]; [apply X_call_inv in H3; rewrite Y_Paragraphs in H3; exact H3|exact Pgs_nil].
  - intros (c & H1 & H2). pose proof (over_ok _ _ _ H1 Ho) as Hc. apply x_call. rewrite Y_Text. eapply x_seq; [exact H1|].
    destruct (sep_dec S_Niho c) as [N|N].
    + destruct c as [|t c]; [destruct N|]. cbn in N. apply X_seq_inv in H2 as (d & H2 & H3). pose proof (X_det _ _ _ _ H2 _ (Par_niho _ _ N Hc)) as E. injection E as ->.
      apply X_loop_inv in H3 as [[E _]|(k & H3 & _ & H4)]; [discriminate|]. apply X_seq_inv in H3 as (c' & H3 & H5). eapply x_seq; [apply x_opt; exact H3|]. apply x_opt, x_call. rewrite Y_Paragraphs. eapply x_seq; eassumption.
    + eapply x_seq; [apply x_opt_no, PS_er, N|]. apply x_opt, x_call. rewrite Y_Paragraphs. exact H2.
Qed.

(** ni'o starts a text of its own *)
Lemma Fin_niho t x : selmaho t = S_Niho -> Y_over x -> (Fin (t :: x) <-> Txt x).
Proof.
  intros Et Ho. assert (N : ~ is_sep S_I (t :: x)) by (cbn; rewrite Et; discriminate).
  assert (E1 : Fin (t :: x) <-> Y T (t :: x) (Ok [])).
  { split; [intros H; apply X_seq_inv in H as (k & H1 & H2); pose proof (X_det _ _ _ _ H1 _ (L_stay _ N)) as E; injection E as ->; exact H2|intros H; eapply x_seq; [apply L_stay, N|exact H]]. }
  rewrite E1, (Txt_Pgs _ Ho). 
  assert (Q : forall y c, Y (XSeq (XTok S_Niho) (XLoop (XTok S_Niho))) (t :: x) (Ok y) -> Y Frees y (Ok c) -> Y PS (t :: x) (Ok c)).
  { intros y c H1 H2. apply x_call. rewrite Y_PS. eapply x_seq; eassumption. }
  destruct (sep_dec S_Niho x) as [Nx|Nx].
  - destruct x as [|u x]; [destruct Nx|]. cbn in Nx. split.
    + intros H. apply X_loop_inv in H as [[E _]|(k & H & _ & H4)]; [discriminate|]. apply X_seq_inv in H as (c & H & H5). apply X_call_inv in H. rewrite Y_PS in H.
      apply X_seq_inv in H as (y & H & H6). apply X_seq_inv in H as (z & H & H7). apply X_tok_inv in H as (w & E & _). injection E as <- <-.
      exists (u :: x). split; [apply frees_stay; [apply niho_head, Nx|exact Ho]|]. eapply x_seq; [apply Par_niho; assumption|].
      apply X_loop_inv in H7 as [[-> H7]|(v & H7 & _ & H8)]; [inversion H7; subst; congruence|]. apply X_tok_inv in H7 as (w & E & _). injection E as <- <-.
      eapply x_loop_more; [eapply x_seq; [apply x_call; rewrite Y_PS; eapply x_seq; [eapply x_seq; [constructor; exact Nx|exact H8]|exact H6]|exact H5]| |exact H4].
      apply X_len in H5, H6, H8. cbn. lia.
    + intros (c & H1 & H2). pose proof (X_det _ _ _ _ H1 _ (frees_stay _ (niho_head _ _ Nx) Ho)) as E. injection E as ->.
      apply X_seq_inv in H2 as (d & H2 & H3). pose proof (X_det _ _ _ _ H2 _ (Par_niho _ _ Nx Ho)) as E. injection E as ->.
      apply X_loop_inv in H3 as [[E _]|(k & H3 & _ & H4)]; [discriminate|]. apply X_seq_inv in H3 as (c' & H3 & H5). apply X_call_inv in H3. rewrite Y_PS in H3.
      apply X_seq_inv in H3 as (y & H3 & H6). apply X_seq_inv in H3 as (z & H3 & H7). apply X_tok_inv in H3 as (w & E & _). injection E as <- <-.
      eapply x_loop_more; [eapply x_seq; [eapply Q; [eapply x_seq; [constructor; exact Et|eapply x_loop_more; [constructor; exact Nx|cbn; lia|exact H7]]|exact H6]|exact H5]| |exact H4].
      apply X_len in H5, H6, H7. cbn. lia.
  - split.
    + intros H. apply X_loop_inv in H as [[E _]|(k & H & _ & H4)]; [discriminate|]. apply X_seq_inv in H as (c & H & H5). apply X_call_inv in H. rewrite Y_PS in H.
      apply X_seq_inv in H as (y & H & H6). apply X_seq_inv in H as (z & H & H7). apply X_tok_inv in H as (w & E & _). injection E as <- <-.
      apply X_loop_inv in H7 as [[-> H7]|(v & H7 & _ & H8)]; [|pose proof (X_det _ _ _ _ H7 _ (tok_er _ _ _ Nx)); discriminate].
      exists c. split; [exact H6|]. eapply x_seq; eassumption.
    + intros (c & H1 & H2). apply X_seq_inv in H2 as (d & H2 & H3). eapply x_loop_more; [eapply x_seq; [eapply Q; [eapply x_seq; [constructor; exact Et|apply x_loop_end, tok_er, Nx]|exact H1]|exact H2]| |exact H3].
      apply X_len in H1, H2. cbn. lia.
Qed.

(** ** Cutting a text at a separator *)
Section Cut.
Context (n : token) (b : list token) (Hn : selmaho n = S_I \/ selmaho n = S_Niho) (Hb : Y_over (n :: b)).
Notation ext := (n :: b).
Context (Hfrees : forall i r, Y Frees i r -> closes i -> Y Frees (i ++ ext) (ext_r ext r))
  (Hitem : forall i r, Y PI i r -> closes i -> Y PI (i ++ ext) (ext_r ext r)).

Lemma over_app i : Y_over i -> Y_over (i ++ ext).
Proof. intros H. apply Forall_app. auto. Qed.

Lemma cut_item c : (forall x, (List.length x < List.length c)%nat -> closes x -> Y_over x -> (Aft (x ++ ext) <-> Aft x /\ Fin ext) /\ (Txt (x ++ ext) <-> Txt x /\ Fin ext)) ->
  closes c -> Y_over c -> (Itm (c ++ ext) <-> Itm c /\ Fin ext).
Proof.
  intros IH Hc Ho. destruct (item_total _ Ho) as (r & H1 & H2). pose proof (Hitem _ _ H1 Hc) as H3.
  destruct r as [d| |]; [|congruence|].
  - cbn [ext_r] in H3.
    assert (E1 : Itm c <-> Fin d). { split; [intros (d' & A & B); pose proof (X_det _ _ _ _ A _ H1) as E; injection E as ->; exact B|intros B; exists d; auto]. }
    assert (E2 : Itm (c ++ ext) <-> Fin (d ++ ext)). { split; [intros (d' & A & B); pose proof (X_det _ _ _ _ A _ H3) as E; injection E as ->; exact B|intros B; exists (d ++ ext); auto]. }
    rewrite E1, E2. pose proof (X_len _ _ _ _ H1) as Hl. pose proof (closes_ok _ _ _ _ H1 Hc) as Hd. pose proof (over_ok _ _ _ H1 Ho) as Hod. destruct d as [|t x].
    + cbn [app]. pose proof Fin_nil. tauto.
    + cbn [app]. pose proof (closes_suffix [t] x Hd) as Hx. pose proof (over_cons _ _ Hod) as Hox.
      destruct (sel_eqb (selmaho t) S_I) eqn:EI; [|destruct (sel_eqb (selmaho t) S_Niho) eqn:EN].
      * apply sel_eqb_eq in EI. rewrite !(Fin_I _ _ EI). apply IH; [cbn in Hl; lia|exact Hx|exact Hox].
      * apply sel_eqb_eq in EN. rewrite (Fin_niho _ _ EN Hox), (Fin_niho _ _ EN (over_app _ Hox)). apply IH; [cbn in Hl; lia|exact Hx|exact Hox].
      * apply sel_eqb_neq in EI, EN. pose proof (Fin_other t x EI EN). pose proof (Fin_other t (x ++ ext) EI EN). tauto.
  - split; [intros (d & A & _); pose proof (X_det _ _ _ _ A _ H3); discriminate|intros [(d & A & _) _]; pose proof (X_det _ _ _ _ A _ H1); discriminate].
Qed.

Lemma Pgs_ext : Pgs ext <-> Fin ext.
Proof.
  destruct Hn as [E|E].
  - rewrite (Pgs_I _ _ E (over_cons _ _ Hb)), (Fin_I _ _ E). reflexivity.
  - rewrite Pgs_other by (cbn; rewrite E; discriminate). split.
    + intros (d & A & B). pose proof (X_det _ _ _ _ A _ (item_stay _ (niho_head _ _ E) Hb)) as Eq. injection Eq as ->. exact B.
    + intros H. exists ext. split; [apply item_stay; [apply niho_head, E|exact Hb]|exact H].
Qed.

Lemma cut_all len : forall i, (List.length i < len)%nat -> closes i -> Y_over i -> (Aft (i ++ ext) <-> Aft i /\ Fin ext) /\ (Txt (i ++ ext) <-> Txt i /\ Fin ext).
Proof.
  induction len as [|len IH]; intros i Hi Hc Ho; [lia|]. destruct (frees_total _ Ho) as (r & H1 & H2). pose proof (Hfrees _ _ H1 Hc) as H3.
  rewrite (Txt_Pgs _ Ho), (Txt_Pgs _ (over_app _ Ho)).
  destruct r as [c| |]; [|congruence|].
  - cbn [ext_r] in H3.
    assert (E : forall (Q : list token -> Prop), (exists c, Y Frees i (Ok c) /\ Q c) <-> Q c).
    { intros Q. split; [intros (c' & A & B); pose proof (X_det _ _ _ _ A _ H1) as E; injection E as ->; exact B|intros B; exists c; auto]. }
    assert (E' : forall (Q : list token -> Prop), (exists c, Y Frees (i ++ ext) (Ok c) /\ Q c) <-> Q (c ++ ext)).
    { intros Q. split; [intros (c' & A & B); pose proof (X_det _ _ _ _ A _ H3) as E''; injection E'' as ->; exact B|intros B; exists (c ++ ext); auto]. }
    unfold Aft. rewrite !E, !E'. pose proof (X_len _ _ _ _ H1) as Hl. pose proof (closes_ok _ _ _ _ H1 Hc) as Hd. pose proof (over_ok _ _ _ H1 Ho) as Hod.
    assert (M : Itm (c ++ ext) <-> Itm c /\ Fin ext) by (apply cut_item; [intros x Hx; apply IH; lia|exact Hd|exact Hod]).
    split; [exact M|]. destruct (sep_dec S_I c) as [N|N].
    + destruct c as [|t x]; [destruct N|]. cbn in N. cbn [app]. pose proof (over_cons _ _ Hod) as Hox. rewrite (Pgs_I _ _ N Hox), (Pgs_I _ _ N (over_app _ Hox)).
      apply IH; [cbn in Hl; lia|eapply closes_suffix with (m := [t]); exact Hd|exact Hox].
    + destruct c as [|t x]; [cbn [app]; rewrite Pgs_ext; pose proof Pgs_nil; tauto|].
      rewrite (Pgs_other _ N). rewrite Pgs_other by exact N. exact M.
  - unfold Aft. split; (split; [intros (d & A & _); pose proof (X_det _ _ _ _ A _ H3); discriminate|intros [(d & A & _) _]; pose proof (X_det _ _ _ _ A _ H1); discriminate]).
Qed.
Theorem cut_text i : closes i -> Y_over i -> (Txt (i ++ ext) <-> Txt i /\ Fin ext).
Proof. intros Hc Ho. apply (cut_all (Datatypes.S (List.length i))); auto. Qed.
End Cut.

Lemma Y_accepts i : Y_over i -> (accepted i <-> Txt i).
Proof. intros Ho. apply (table_accepts _ _ _ _ Y_rx_table Y_ok Y_root _ Ho). Qed.

Theorem cut_niho a n b : selmaho n = S_Niho -> closes a -> Y_over a -> Y_over b -> (accepted (a ++ n :: b) <-> accepted a /\ accepted b).
Proof.
  intros En Hc Ha Hb. assert (Hb' : Y_over (n :: b)) by (constructor; [rewrite En; reflexivity|exact Hb]).
  assert (Hab : Y_over (a ++ n :: b)) by (apply Forall_app; auto). rewrite (Y_accepts _ Hab), (Y_accepts _ Ha), (Y_accepts _ Hb).
  assert (Q : forall x i r, bt Y_ns_N x = true -> Y (XCall x) i r -> closes i -> Y (XCall x) (i ++ n :: b) (ext_r (n :: b) r)).
  { intros x i r Hx H Hi. destruct (before (rx_of Y_rx) n b Y_cs (bt Y_ns_N) S_Niho En [] Y_groups Y_nice_N ltac:(intros d []) _ _ _ H) as [A _]. apply A; [exact Hx|exact Hi]. }
  rewrite (cut_text n b (or_intror En) Hb') by (auto; intros i r; apply Q; reflexivity). rewrite (Fin_niho _ _ En Hb). reflexivity.
Qed.

(** .i: what may not follow *)
Definition apart (b : list token) : Prop := forall d t, In d Y_specials -> selmaho t = S_I -> Y (XSeq (XTok S_I) d) (t :: b) Er.
Theorem cut_I a n b : selmaho n = S_I -> closes a -> Y_over a -> Y_over b -> apart b -> (forall c, Y Frees b (Ok c) -> Pgs c <-> Itm c) -> (accepted (a ++ n :: b) <-> accepted a /\ accepted b).
Proof.
  intros En Hc Ha Hb Hs Hl. assert (Hb' : Y_over (n :: b)) by (constructor; [rewrite En; reflexivity|exact Hb]).
  assert (Hab : Y_over (a ++ n :: b)) by (apply Forall_app; auto). rewrite (Y_accepts _ Hab), (Y_accepts _ Ha), (Y_accepts _ Hb).
  assert (Q : forall x i r, bt Y_ns_I x = true -> Y (XCall x) i r -> closes i -> Y (XCall x) (i ++ n :: b) (ext_r (n :: b) r)).
  { intros x i r Hx H Hi. destruct (before (rx_of Y_rx) n b Y_cs (bt Y_ns_I) S_I En Y_specials Y_groups Y_nice_I ltac:(intros d Hd; apply Hs; assumption) _ _ _ H) as [A _]. apply A; [exact Hx|exact Hi]. }
  rewrite (cut_text n b (or_introl En) Hb') by (auto; intros i r; apply Q; reflexivity). rewrite (Fin_I _ _ En), (Txt_Pgs _ Hb).
  assert (E : Aft b <-> exists c, Y Frees b (Ok c) /\ Pgs c); [|rewrite E; reflexivity].
  unfold Aft. split; intros (c & A & B); exists c; (split; [exact A|]); apply (Hl c A); exact B.
Qed.

(** ** When a sentence is not attached *)
Definition Y_nd : list bool := Eval vm_compute in CstTotal.iter 40 (fun tb => map (fun x => nds attach_with (bt tb) (rx_of Y_rx x)) all_cnts) all_true.
Definition Y_fn : list bool := Eval vm_compute in CstTotal.iter 40 (fun tb => map (fun x => fns attach_with (bt Y_nd) (bt tb) (rx_of Y_rx x)) all_cnts) all_true.
Definition Y_nfirst (s : Selmaho) : bool := negb (mem attach_first s).
Definition Y_nlate (s : Selmaho) : bool := negb (mem late_first s).
Definition Y_er_A : list bool * list bool := Eval vm_compute in Y_erl Y_nfirst.
Definition Y_er_L : list bool * list bool := Eval vm_compute in Y_erl Y_nlate.
Definition Y_check2 : bool :=
  (forallb (fun x => implb (bt Y_nd x) (nds attach_with (bt Y_nd) (rx_of Y_rx x))) all_cnts &&
   forallb (fun x => implb (bt Y_fn x) (fns attach_with (bt Y_nd) (bt Y_fn) (rx_of Y_rx x))) all_cnts) &&
  (forallb (fun x => implb (bt (fst Y_er_A) x) (er (bt (fst Y_er_A)) (bt (snd Y_er_A)) Y_nfirst (rx_of Y_rx x))) all_cnts &&
   forallb (fun x => implb (bt (snd Y_er_A) x) (oo (bt (fst Y_er_A)) (bt (snd Y_er_A)) Y_nfirst (rx_of Y_rx x))) all_cnts) &&
  (forallb (fun x => implb (bt (fst Y_er_L) x) (er (bt (fst Y_er_L)) (bt (snd Y_er_L)) Y_nlate (rx_of Y_rx x))) all_cnts &&
   forallb (fun x => implb (bt (snd Y_er_L) x) (oo (bt (fst Y_er_L)) (bt (snd Y_er_L)) Y_nlate (rx_of Y_rx x))) all_cnts) &&
  (forallb (fun d => nds attach_with (bt Y_nd) d && fns attach_with (bt Y_nd) (bt Y_fn) d && er (bt (fst Y_er_A)) (bt (snd Y_er_A)) Y_nfirst d && nice Y_cs (bt Y_ns_I) S_I Y_specials d && nice Y_cs (bt Y_ns_N) S_Niho [] d) Y_specials &&
   bt (snd Y_er_L) G_Frees).
Lemma Y_checked2 : Y_check2 = true.
Proof. vm_compute. reflexivity. Qed.
Lemma Y_nd_ok x : bt Y_nd x = true -> nds attach_with (bt Y_nd) (rx_of Y_rx x) = true.
Proof. pose proof Y_checked2 as H. unfold Y_check2 in H. do 4 apply andb_true_iff in H as [H _]. exact (forallb_impl _ _ _ H x (all_cnts_complete x)). Qed.
Lemma Y_fn_ok x : bt Y_fn x = true -> fns attach_with (bt Y_nd) (bt Y_fn) (rx_of Y_rx x) = true.
Proof. pose proof Y_checked2 as H. unfold Y_check2 in H. do 3 apply andb_true_iff in H as [H _]. apply andb_true_iff in H as [_ H]. exact (forallb_impl _ _ _ H x (all_cnts_complete x)). Qed.
Lemma Y_erA_ok x : bt (fst Y_er_A) x = true -> er (bt (fst Y_er_A)) (bt (snd Y_er_A)) Y_nfirst (rx_of Y_rx x) = true.
Proof. pose proof Y_checked2 as H. unfold Y_check2 in H. do 2 apply andb_true_iff in H as [H _]. apply andb_true_iff in H as [_ H]. apply andb_true_iff in H as [H _]. exact (forallb_impl _ _ _ H x (all_cnts_complete x)). Qed.
Lemma Y_ooA_ok x : bt (snd Y_er_A) x = true -> oo (bt (fst Y_er_A)) (bt (snd Y_er_A)) Y_nfirst (rx_of Y_rx x) = true.
Proof. pose proof Y_checked2 as H. unfold Y_check2 in H. do 2 apply andb_true_iff in H as [H _]. apply andb_true_iff in H as [_ H]. apply andb_true_iff in H as [_ H]. exact (forallb_impl _ _ _ H x (all_cnts_complete x)). Qed.
Lemma Y_erL_ok x : bt (fst Y_er_L) x = true -> er (bt (fst Y_er_L)) (bt (snd Y_er_L)) Y_nlate (rx_of Y_rx x) = true.
Proof. pose proof Y_checked2 as H. unfold Y_check2 in H. apply andb_true_iff in H as [H _]. apply andb_true_iff in H as [_ H]. apply andb_true_iff in H as [H _]. exact (forallb_impl _ _ _ H x (all_cnts_complete x)). Qed.
Lemma Y_ooL_ok x : bt (snd Y_er_L) x = true -> oo (bt (fst Y_er_L)) (bt (snd Y_er_L)) Y_nlate (rx_of Y_rx x) = true.
Proof. pose proof Y_checked2 as H. unfold Y_check2 in H. apply andb_true_iff in H as [H _]. apply andb_true_iff in H as [_ H]. apply andb_true_iff in H as [_ H]. exact (forallb_impl _ _ _ H x (all_cnts_complete x)). Qed.
Lemma Y_special_ok d : In d Y_specials -> nds attach_with (bt Y_nd) d = true /\ fns attach_with (bt Y_nd) (bt Y_fn) d = true /\
  er (bt (fst Y_er_A)) (bt (snd Y_er_A)) Y_nfirst d = true /\ nice Y_cs (bt Y_ns_I) S_I Y_specials d = true /\ nice Y_cs (bt Y_ns_N) S_Niho [] d = true.
Proof.
  intros Hd. pose proof Y_checked2 as H. unfold Y_check2 in H. apply andb_true_iff in H as [_ H]. apply andb_true_iff in H as [H _]. rewrite forallb_forall in H. specialize (H d Hd).
  repeat (apply andb_true_iff in H as [H ?]). auto.
Qed.
Lemma Y_frees_L : oo (bt (fst Y_er_L)) (bt (snd Y_er_L)) Y_nlate (XCall G_Frees) = true.
Proof. pose proof Y_checked2 as H. unfold Y_check2 in H. apply andb_true_iff in H as [_ H]. apply andb_true_iff in H as [_ H]. exact H. Qed.

Lemma special_total d i : In d Y_specials -> Y_over i -> exists r, Y d i r.
Proof.
  intros Hd Hi. assert (exists t, selmaho t = S_I) as (t & Et) by (exists (mktok false S_I (mkspan 0 0)); reflexivity). assert (Hi' : Y_over (t :: i)) by (constructor; [rewrite Et; reflexivity|exact Hi]).
  assert (Q : forall x, rx_of Y_rx x = XSeq (XTok S_I) d -> match st_of Y_st x with SLive => true | _ => false end = true -> exists r, Y d i r).
  { intros x Ex Hs. destruct (Y_total x (t :: i) Hi') as (r & Hr & _); [rewrite Ex; discriminate|exact Hs|]. apply X_call_inv in Hr. rewrite Ex in Hr.
    inversion Hr; subst; match goal with A : X _ (XTok _) _ _ |- _ => inversion A; subst; try congruence end; eauto. }
  destruct Hd as [<-|[<-|[]]]; [apply (Q G_ConnectedSentenceSeparator)|apply (Q G_CloseSentenceSeparator)]; vm_compute; reflexivity.
Qed.
Definition bef (l : list Selmaho) (i : list token) : bool := match i with t :: _ => mem l (selmaho t) | [] => false end.
Lemma bef_begins l i : bef l i = true <-> begins_with l i.
Proof.
  unfold begins_with. destruct i as [|t i]; cbn [bef].
  - split; [discriminate|intros (? & ? & E & _); discriminate].
  - split; [intros H; exists t, i; split; [reflexivity|apply mem_in, H]|intros (u & r & E & H); injection E as <- <-; apply mem_in, H].
Qed.
Lemma not_attached i : Y_over i -> ~ attaches i -> forall d, In d Y_specials -> Y d i Er.
Proof.
  intros Ho Ha d Hd. destruct (special_total d i Hd Ho) as (r & Hr). destruct (Y_special_ok d Hd) as (H1 & H2 & H3 & _).
  destruct (bef attach_first i) eqn:E.
  - assert (N : ~ some_of attach_with i). { intros (t & Ht & Es). apply Ha. split; [apply bef_begins, E|]. exists (selmaho t). split; [exact Es|]. exists t. auto. }
    destruct r as [j| |]; [|exact Hr|].
    + destruct N. eapply nds_some; [exact Y_nd_ok|exact Hr|exact H1].
    + destruct N. eapply fns_ok; [exact Y_nd_ok|exact Y_fn_ok|exact Hr|exact H2|reflexivity].
  - destruct (first_ok (rx_of Y_rx) (bt (fst Y_er_A)) (bt (snd Y_er_A)) Y_nfirst Y_erA_ok Y_ooA_ok _ _ _ Hr) as [A _].
    + destruct i as [|t i]; [exact I|]. cbn [bef heads] in *. unfold Y_nfirst. rewrite E. reflexivity.
    + rewrite (A H3) in Hr. exact Hr.
Qed.
Lemma apart_iff b : apart b <-> forall d, In d Y_specials -> Y d b Er.
Proof.
  split.
  - intros H d Hd. assert (exists t, selmaho t = S_I) as (t & Et) by (exists (mktok false S_I (mkspan 0 0)); reflexivity). specialize (H d t Hd Et). inversion H; subst; match goal with A : X _ (XTok _) _ _ |- _ => inversion A; subst; congruence || assumption end.
  - intros H d t Hd Et. eapply x_seq; [constructor; exact Et|apply H, Hd].
Qed.

(** nothing in front of [b] gets hold of it *)
Definition loose (b : list token) : Prop := apart b /\ forall c t x, Y Frees b (Ok c) -> c = t :: x -> selmaho t = S_I -> apart x.
Lemma separate_loose b : Y_over b -> separate b -> loose b.
Proof.
  intros Ho [H1 H2]. split; [apply apart_iff, not_attached; assumption|]. intros c t x Hc -> Et.
  destruct (X_suffix _ _ _ _ Hc _ eq_refl) as (m & E). destruct (bef late_first b) eqn:El.
  - apply apart_iff, not_attached; [|eapply H2; [apply bef_begins, El|exact E|exact Et]]. rewrite E in Ho. apply Forall_app in Ho as [_ Ho]. inversion Ho; assumption.
  - destruct (first_ok (rx_of Y_rx) (bt (fst Y_er_L)) (bt (snd Y_er_L)) Y_nlate Y_erL_ok Y_ooL_ok _ _ _ Hc) as [_ A].
    + destruct b as [|u b]; [exact I|]. cbn [bef heads] in *. unfold Y_nlate. rewrite El. reflexivity.
    + destruct (A Y_frees_L) as [A'|A']; [discriminate|]. injection A' as <-. cbn in El. rewrite Et in El. discriminate El.
Qed.

Section Sim.
Context (n : token) (b : list token) (Hn : selmaho n = S_Niho \/ (selmaho n = S_I /\ apart b)).
Lemma sim e i r : nice Y_cs (bt Y_ns_I) S_I Y_specials e = true -> nice Y_cs (bt Y_ns_N) S_Niho [] e = true -> Y e i r -> closes i -> Y e (i ++ n :: b) (ext_r (n :: b) r).
Proof.
  intros H1 H2 H Hi. destruct Hn as [En|[En Hs]].
  - destruct (before (rx_of Y_rx) n b Y_cs (bt Y_ns_N) S_Niho En [] Y_groups Y_nice_N ltac:(intros d []) _ _ _ H) as [A _]. apply A; [exact H2|exact Hi].
  - destruct (before (rx_of Y_rx) n b Y_cs (bt Y_ns_I) S_I En Y_specials Y_groups Y_nice_I ltac:(intros d Hd; apply Hs; assumption) _ _ _ H) as [A _]. apply A; [exact H1|exact Hi].
Qed.
Lemma apart_app a : closes a -> apart a -> apart (a ++ n :: b).
Proof.
  intros Hc Ha. apply apart_iff. rewrite apart_iff in Ha. intros d Hd. destruct (Y_special_ok d Hd) as (_ & _ & _ & H4 & H5). exact (sim d a Er H4 H5 (Ha d Hd) Hc).
Qed.
End Sim.
Lemma closes_nil : closes [].
Proof. intros o c m r _ E. symmetry in E. apply app_eq_nil in E as [_ ->]. apply Nat.le_refl. Qed.
Lemma item_nil : Y PI [] (Ok []).
Proof. apply item_stay; [discriminate|constructor]. Qed.
Lemma item_I n b : selmaho n = S_I -> apart b -> Y PI (n :: b) (Ok (n :: b)).
Proof. intros En Ha. apply (sim n b (or_intror (conj En Ha)) PI [] (Ok [])); [reflexivity|reflexivity|apply item_nil|apply closes_nil]. Qed.
Lemma loose_Pgs b c : loose b -> Y_over b -> Y Frees b (Ok c) -> (Pgs c <-> Itm c).
Proof.
  intros [_ H] Ho Hc. destruct (sep_dec S_I c) as [N|N]; [|apply Pgs_other, N]. destruct c as [|t x]; [destruct N|]. cbn in N.
  pose proof (H _ _ _ Hc eq_refl N) as Ha. pose proof (over_ok _ _ _ Hc Ho) as Ho'. pose proof (over_cons _ _ Ho') as Hx. rewrite (Pgs_I _ _ N Hx), <- (Fin_I _ _ N). split.
  - intros F. exists (t :: x). split; [apply item_I; assumption|exact F].
  - intros (d & A & F). pose proof (X_det _ _ _ _ A _ (item_I _ _ N Ha)) as E. injection E as ->. exact F.
Qed.
Lemma loose_app a n b : closes a -> Y_over a -> loose a -> (selmaho n = S_Niho \/ (selmaho n = S_I /\ apart b)) -> loose (a ++ n :: b).
Proof.
  intros Hc Ho [H1 H2] Hn. split; [apply apart_app; assumption|]. intros c t x Hf -> Et. destruct (frees_total _ Ho) as (r & A & _).
  pose proof (sim n b Hn Frees a r eq_refl eq_refl A Hc) as B. pose proof (X_det _ _ _ _ Hf _ B) as E. destruct r as [c| |]; try discriminate E. cbn [ext_r] in E. injection E as E.
  destruct c as [|u c].
  - injection E as -> ->. destruct Hn as [En|[_ Ha]]; [congruence|exact Ha].
  - injection E as -> ->. apply apart_app; [exact Hn| |eapply H2; [exact A|reflexivity|exact Et]]. eapply closes_suffix with (m := [u]). eapply closes_ok; [exact A|exact Hc].
Qed.

Theorem cut_loose a n b : closes a -> Y_over a -> Y_over b -> (selmaho n = S_Niho \/ (selmaho n = S_I /\ loose b)) -> (accepted (a ++ n :: b) <-> accepted a /\ accepted b).
Proof.
  intros Hc Ha Hb [En|[En Hl]]; [apply cut_niho; assumption|]. apply cut_I; auto; [apply Hl|]. intros c Hf. eapply loose_Pgs; eassumption.
Qed.

Theorem cut_list l : forall a, closes a -> Y_over a ->
  (forall n b, In (n, b) l -> closes b /\ Y_over b /\ (selmaho n = S_Niho \/ (selmaho n = S_I /\ loose b))) ->
  (accepted (joined a l) <-> accepted a /\ forall n b, In (n, b) l -> accepted b) /\
  (Y_over (joined a l)) /\ (loose a -> loose (joined a l)).
Proof.
  unfold joined. induction l as [|(n, b) l IH]; intros a Hc Ha Hl.
  - cbn. rewrite app_nil_r. split; [split; [intros H; split; [exact H|intros ? ? []]|tauto]|auto].
  - destruct (Hl n b (or_introl eq_refl)) as (Hcb & Hob & Hn). destruct (IH b Hcb Hob) as (I1 & I2 & I3); [intros; apply Hl; right; assumption|].
    cbn [map List.concat fst snd app].
    assert (Hn' : selmaho n = S_Niho \/ (selmaho n = S_I /\ loose (b ++ List.concat (map (fun p => fst p :: snd p) l)))) by (destruct Hn as [Hn|[Hn Hb]]; auto).
    split; [|split].
    + rewrite cut_loose; auto. rewrite I1. split.
      * intros (A & B & C). split; [exact A|]. intros n' b' [E|Hi]; [injection E as <- <-; exact B|eauto].
      * intros (A & B). split; [exact A|]. split; [apply (B n b (or_introl eq_refl))|intros n' b' Hi; apply (B n' b'); right; exact Hi].
    + apply Forall_app. split; [exact Ha|]. constructor; [|exact I2]. destruct Hn as [E|[E _]]; rewrite E; reflexivity.
    + intros La. apply loose_app; auto. destruct Hn' as [E|[E [Hp _]]]; auto.
Qed.

(** CstSame.v -- the parser treats the three kinds of brivla alike. *)
From Verif Require Import Base Selmaho Lex Cst CstRules CstApi CstMeta CstTotal SpecCst CstTree CstBalance CstThms CstAuto CstSimp CstIndic CstTail.
From Coq Require Import Lia Arith.

Definition three : list Selmaho := [S_Gismu; S_Lujvo; S_Fuhivla].
Definition others : list Selmaho := filter (fun s => negb (mem three s)) all_selmaho.

(** a word of class [k] with what may come around it *)
Definition Bx (k : rx) : rx :=
  XSeq (XNotAfter (XNotAfter (XSeq (XLoop (XCall G_Bahe)) (XSeq k (XOpt (XCall G_Indicators)))) (XCall G_Bu)) (XCall G_Zei)) (XCall G_Frees).

Section Merge.
Context (tbl : cnt -> rx).
Notation X := (X tbl).

Lemma seq_subst a b b' i r : (forall j r, X a i (Ok j) -> X b j r -> X b' j r) -> X (XSeq a b) i r -> X (XSeq a b') i r.
Proof. intros H HX. inversion HX; subst; [eapply x_seq; eauto|apply x_seq_no; assumption|apply x_seq_fa; assumption]. Qed.
Lemma seq_subst1 a a' b i r : (forall r, X a i r -> X a' i r) -> X (XSeq a b) i r -> X (XSeq a' b) i r.
Proof. intros H HX. inversion HX; subst; [eapply x_seq; eauto|apply x_seq_no; auto|apply x_seq_fa; auto]. Qed.
Lemma na_subst a a' p i r : (forall r, X a i r -> X a' i r) -> X (XNotAfter a p) i r -> X (XNotAfter a' p) i r.
Proof.
  intros H HX. inversion HX; subst;
    [eapply x_na_no; auto|eapply x_na_hit; eauto|eapply x_na; eauto|eapply x_na_fa; auto|eapply x_na_fa2; eauto].
Qed.
Lemma Bx_subst k k' i r : (forall j r, X (XLoop (XCall G_Bahe)) i (Ok j) -> X k j r -> X k' j r) -> X (Bx k) i r -> X (Bx k') i r.
Proof.
  intros H. apply seq_subst1. intros r1. apply na_subst. intros r2. apply na_subst. intros r3. apply seq_subst. intros j r4 Hj. apply seq_subst1. intros r5. apply H, Hj.
Qed.

Lemma not_others s : ~ In s others -> In s three.
Proof.
  intros H. destruct (mem three s) eqn:E; [apply mem_in, E|]. exfalso. apply H. unfold others. rewrite filter_In. split; [apply all_selmaho_in|rewrite E; reflexivity].
Qed.
Lemma three_others s : In s three -> ~ In s others.
Proof. unfold others. rewrite filter_In. intros H [_ E]. apply mem_in in H. rewrite H in E. discriminate E. Qed.

Notation L := (XLoop (XCall G_Bahe)).
Definition want (s : Selmaho) (l : xres) : Prop := match l with Ok (t :: _) => selmaho t = s | _ => False end.
Definition miss (l : xres) : xres := match l with Fa => Fa | _ => Er end.

Lemma Bx_first k i r : X (Bx k) i r -> exists l, X L i l.
Proof.
  intros H.
  assert (A : exists r, X (XNotAfter (XNotAfter (XSeq L (XSeq k (XOpt (XCall G_Indicators)))) (XCall G_Bu)) (XCall G_Zei)) i r) by (inversion H; subst; eauto).
  destruct A as (r1 & A).
  assert (B : exists r, X (XNotAfter (XSeq L (XSeq k (XOpt (XCall G_Indicators)))) (XCall G_Bu)) i r) by (inversion A; subst; eauto).
  destruct B as (r2 & B).
  assert (C : exists r, X (XSeq L (XSeq k (XOpt (XCall G_Indicators)))) i r) by (inversion B; subst; eauto).
  destruct C as (r3 & C). inversion C; subst; eauto.
Qed.
Lemma Bx_hit s l i r : In s three -> want s l -> X L i l -> X (Bx (XTok s)) i r -> X (Bx (XAny others)) i r.
Proof.
  intros Hs Hw Hl. apply Bx_subst. intros j r1 Hj Hk. pose proof (X_det _ _ _ _ Hl _ Hj) as ->. destruct j as [|t j]; [destruct Hw|]. cbn in Hw.
  inversion Hk; subst; [|congruence]. constructor. apply three_others, Hs.
Qed.
Lemma Bx_miss k l i : (forall j, l = Ok j -> X k j Er) -> X L i l -> X (Bx k) i (miss l).
Proof.
  intros H Hl. destruct l as [j| |]; cbn.
  - apply x_seq_no. apply x_na_no, x_na_no. eapply x_seq; [exact Hl|]. apply x_seq_no, H. reflexivity.
  - apply x_seq_no. apply x_na_no, x_na_no. apply x_seq_no, Hl.
  - apply x_seq_fa. apply x_na_fa, x_na_fa. apply x_seq_fa, Hl.
Qed.
Lemma Bx_no s l i r : ~ want s l -> X L i l -> X (Bx (XTok s)) i r -> r = miss l.
Proof.
  intros Hw Hl H. eapply X_det; [exact H|]. apply Bx_miss; [|exact Hl]. intros [|t j] ->; [constructor|]. apply x_tok_no. exact Hw.
Qed.

Definition arms (p : rx) : rx := XAlt (XAlt (XAlt p (Bx (XTok S_Gismu))) (Bx (XTok S_Lujvo))) (Bx (XTok S_Fuhivla)).
Definition arm (p : rx) : rx := XAlt p (Bx (XAny others)).

Lemma alt_inv a b i r : X (XAlt a b) i r -> (X a i r /\ r <> Er) \/ (X a i Er /\ X b i r).
Proof. intros H. inversion H; subst; auto; left; split; auto; discriminate. Qed.
Lemma alt_here a b i r : X a i r -> r <> Er -> X (XAlt a b) i r.
Proof. intros H N. destruct r; [apply x_alt_l|congruence|apply x_alt_fa]; assumption. Qed.

Lemma arms_arm p i r : X (arms p) i r -> X (arm p) i r.
Proof.
  intros H. unfold arms, arm in *.
  assert (A : (X p i r /\ r <> Er) \/ X p i Er /\ ((X (Bx (XTok S_Gismu)) i r /\ r <> Er) \/ X (Bx (XTok S_Gismu)) i Er /\
    ((X (Bx (XTok S_Lujvo)) i r /\ r <> Er) \/ X (Bx (XTok S_Lujvo)) i Er /\ X (Bx (XTok S_Fuhivla)) i r))).
  { apply alt_inv in H as [[H N]|[H HF]].
    - apply alt_inv in H as [[H _]|[H HL]].
      + apply alt_inv in H as [[H _]|[H HG]]; auto 10.
      + apply alt_inv in H as [[H N']|[H HG]]; [congruence|]. auto 10.
    - apply alt_inv in H as [[H N]|[H HL]]; [congruence|]. apply alt_inv in H as [[H N]|[H HG]]; [congruence|]. auto 10. }
  destruct A as [[A N]|[A B]]; [apply alt_here; assumption|]. apply x_alt_r; [exact A|].
  assert (Hl : exists l, X L i l) by (destruct B as [[B _]|[B _]]; eapply Bx_first; exact B).
  destruct Hl as (l & Hl).
  assert (D : want S_Gismu l \/ want S_Lujvo l \/ want S_Fuhivla l \/ forall s, In s three -> ~ want s l).
  { destruct l as [[|t j]| |]; try solve [right; right; right; intros s _ []]. cbn.
    destruct (mem three (selmaho t)) eqn:E.
    - apply mem_in in E. destruct E as [E|[E|[E|[]]]]; symmetry in E; auto.
    - right. right. right. intros s Hs <-. apply mem_notin in E. exact (E Hs). }
  assert (U : forall s s', want s l -> want s' l -> s = s') by (intros s s'; destruct l as [[|t j]| |]; cbn; try tauto; congruence).
  assert (ND : forall s s', want s l -> s <> s' -> ~ want s' l) by (intros s s' H1 H2 H3; exact (H2 (U _ _ H1 H3))).
  assert (NF : forall s, want s l -> miss l = Er) by (intros s; destruct l; cbn; tauto || reflexivity).
  destruct D as [D|[D|[D|D]]].
  - assert (E : X (Bx (XTok S_Gismu)) i r).
    { destruct B as [[B _]|[B [[B' N']|[B' B'']]]]; [exact B| |].
      - pose proof (Bx_no S_Lujvo l i _ (ND S_Gismu S_Lujvo D ltac:(discriminate)) Hl B') as E. rewrite (NF _ D) in E. congruence.
      - pose proof (Bx_no S_Fuhivla l i _ (ND S_Gismu S_Fuhivla D ltac:(discriminate)) Hl B'') as E. rewrite (NF _ D) in E. subst r. exact B. }
    eapply Bx_hit; [|exact D|exact Hl|exact E]. cbn; auto.
  - assert (E : X (Bx (XTok S_Lujvo)) i r).
    { destruct B as [[B N']|[B [[B' N']|[B' B'']]]]; [|exact B'|].
      - pose proof (Bx_no S_Gismu l i _ (ND S_Lujvo S_Gismu D ltac:(discriminate)) Hl B) as E. rewrite (NF _ D) in E. congruence.
      - pose proof (Bx_no S_Fuhivla l i _ (ND S_Lujvo S_Fuhivla D ltac:(discriminate)) Hl B'') as E. rewrite (NF _ D) in E. subst r. exact B'. }
    eapply Bx_hit; [|exact D|exact Hl|exact E]. cbn; auto.
  - assert (E : X (Bx (XTok S_Fuhivla)) i r).
    { destruct B as [[B N']|[B [[B' N']|[B' B'']]]]; [| |exact B''].
      - pose proof (Bx_no S_Gismu l i _ (ND S_Fuhivla S_Gismu D ltac:(discriminate)) Hl B) as E. rewrite (NF _ D) in E. congruence.
      - pose proof (Bx_no S_Lujvo l i _ (ND S_Fuhivla S_Lujvo D ltac:(discriminate)) Hl B') as E. rewrite (NF _ D) in E. congruence. }
    eapply Bx_hit; [|exact D|exact Hl|exact E]. cbn; auto.
  - assert (Er : r = miss l).
    { assert (D1 := D S_Gismu ltac:(cbn; auto)). assert (D2 := D S_Lujvo ltac:(cbn; auto)). assert (D3 := D S_Fuhivla ltac:(cbn; auto)).
      destruct B as [[B _]|[B [[B' _]|[B' B'']]]]; [exact (Bx_no _ _ _ _ D1 Hl B)|exact (Bx_no _ _ _ _ D2 Hl B')|exact (Bx_no _ _ _ _ D3 Hl B'')]. }
    subst r. apply Bx_miss; [|exact Hl]. intros [|t j] ->; [constructor|]. apply x_any_no.
    destruct (mem others (selmaho t)) eqn:E; [apply mem_in, E|]. exfalso. apply mem_notin in E. apply not_others in E. exact (D _ E eq_refl).
Qed.

Lemma alt_subst a a' b i r : (forall r, X a i r -> X a' i r) -> X (XAlt a b) i r -> X (XAlt a' b) i r.
Proof. intros H HX. apply alt_inv in HX as [[HX N]|[HX HX']]; [apply alt_here; auto|apply x_alt_r; auto]. Qed.
End Merge.

Fixpoint merge (k : nat) (e : rx) : rx :=
  match k, e with
  | O, XAlt (XAlt (XAlt p _) _) _ => arm p
  | S k, XAlt a b => XAlt (merge k a) b
  | _, _ => e
  end.
Fixpoint armed (k : nat) (e : rx) : Prop :=
  match k, e with
  | O, XAlt (XAlt (XAlt p _) _) _ => e = arms p
  | S k, XAlt a b => armed k a
  | _, _ => True
  end.
Opaque others.
Lemma merge_ok tbl k : forall e i r, armed k e -> X tbl e i r -> X tbl (merge k e) i r.
Proof.
  induction k as [|k IH]; intros e i r Ha H.
  - destruct e; try exact H. destruct e1; try exact H. destruct e1_1; try exact H. cbn [armed merge] in *. rewrite Ha in H. apply arms_arm, H.
  - destruct e; try exact H. cbn [armed merge] in *. eapply alt_subst; [|exact H]. intros r'. apply IH, Ha.
Qed.

(** one rule merged *)
Section One.
Context (tbl : cnt -> rx) (x0 : cnt) (k0 : nat) (Ha : armed k0 (tbl x0)).
Definition tbl' (x : cnt) : rx := if is_nt x x0 then merge k0 (tbl x) else tbl x.
Hypothesis Hnt : forall x, is_nt x x0 = true -> x = x0.
Lemma merged e i r : X tbl e i r -> X tbl' e i r.
Proof.
  induction 1; try (econstructor; eassumption).
  - constructor. unfold tbl' at 2. destruct (is_nt x x0) eqn:E; [|exact IHX]. apply Hnt in E as ->. apply merge_ok; assumption.
Qed.
End One.

(** exchanging words of the three classes *)
Definition alike (s s' : Selmaho) : Prop := s = s' \/ (In s three /\ In s' three).
Definition alikes : list token -> list token -> Prop := Forall2 (fun t t' => alike (selmaho t) (selmaho t')).
Definition ralike (r r' : xres) : Prop := match r, r' with Ok j, Ok j' => alikes j j' | Er, Er => True | Fa, Fa => True | _, _ => False end.
Lemma alikes_len i i' : alikes i i' -> List.length i' = List.length i.
Proof. induction 1; cbn; congruence. Qed.

Fixpoint blind (e : rx) : bool :=
  match e with
  | XTok s => negb (mem three s)
  | XAny l => forallb (mem l) three || negb (existsb (mem l) three)
  | XSeq a b | XAlt a b | XNotThen a b | XNotAfter a b | XTill a b => blind a && blind b
  | XOpt a | XLoop a | XConsume a | XCut a => blind a
  | _ => true
  end.

Section Exchange.
Context (tbl : cnt -> rx) (Hb : forall x, blind (tbl x) = true).
Lemma alike_any l s s' : blind (XAny l) = true -> alike s s' -> In s l -> In s' l.
Proof.
  cbn [blind]. intros Hl [->|[H1 H2]] Hs; [exact Hs|]. apply orb_true_iff in Hl as [Hl|Hl].
  - rewrite forallb_forall in Hl. apply mem_in, Hl, H2.
  - apply negb_true_iff in Hl. exfalso. enough (existsb (mem l) three = true) by congruence. apply existsb_exists. exists s. split; [exact H1|apply mem_in, Hs].
Qed.
Lemma alike_sym s s' : alike s s' -> alike s' s.
Proof. intros [->|[]]; [left; reflexivity|right; auto]. Qed.
Lemma alike_tok k s s' : blind (XTok k) = true -> alike s s' -> s = k -> s' = k.
Proof. cbn [blind]. intros Hl [->|[H1 H2]] ->; [reflexivity|]. exfalso. apply negb_true_iff, mem_notin in Hl. exact (Hl H1). Qed.

Lemma exchange e i r : X tbl e i r -> blind e = true -> forall i', alikes i i' -> exists r', X tbl e i' r' /\ ralike r r'.
Proof.
  induction 1; intros Hbl i' Hi; cbn [blind] in Hbl; try (apply andb_true_iff in Hbl as [Hbl1 Hbl2]);
    repeat match goal with
    | IH : blind ?a = true -> forall i', alikes ?i i' -> _, B : blind ?a = true, A : alikes ?i ?i' |- _ =>
        let r' := fresh "r" in let H1 := fresh "X" in let H2 := fresh "R" in
        destruct (IH B i' A) as (r' & H1 & H2); clear IH; destruct r'; cbn in H2; try contradiction
    | A : alikes ?i ?i' |- _ => match goal with L : List.length i' = List.length i |- _ => fail 1 | _ => pose proof (alikes_len _ _ A) end
    end;
    try (eexists; (split; [solve [econstructor; (eassumption || congruence)]|cbn; auto]); fail).
  - inversion Hi as [|? t' ? r' E Hr]; subst. exists (Ok r'). split; [constructor; eapply alike_tok; [|exact E|reflexivity]; exact Hbl|exact Hr].
  - inversion Hi as [|? t' ? r' E Hr]; subst. exists Er. split; [|exact I]. apply x_tok_no. intros E'. apply H. eapply alike_tok; [|apply alike_sym, E|exact E']. exact Hbl.
  - inversion Hi; subst. exists Er. split; constructor.
  - inversion Hi as [|? t' ? r' E Hr]; subst. exists (Ok r'). split; [constructor; intros E'; apply H; eapply alike_any; [|apply alike_sym, E|exact E']; exact Hbl|exact Hr].
  - inversion Hi as [|? t' ? r' E Hr]; subst. exists Er. split; [|exact I]. apply x_any_no. eapply alike_any; [|exact E|exact H]; exact Hbl.
  - inversion Hi; subst. exists Er. split; constructor.
  - destruct (IHX (Hb x) i' Hi) as (r' & A & B). exists r'. split; [constructor; exact A|exact B].
  - destruct (IHX2 Hbl _ R) as (r' & A & B). exists r'. split; [|exact B]. eapply x_loop_more; eauto. congruence.
  - destruct (IHX3 (proj2 (andb_true_iff _ _) (conj Hbl1 Hbl2)) _ R0) as (r' & A & B). exists r'. split; [|exact B]. eapply x_till_more; eauto. congruence.
Qed.
End Exchange.

Definition F_sg (s : Selmaho) : bool := true.
Definition F_st : list (status * bool) := Eval vm_compute in st_table F_sg 40.
Definition F_rx : list rx := Eval vm_compute in rx_table F_sg F_st.
Lemma F_rx_table : F_rx = rx_table F_sg F_st.
Proof. vm_compute. reflexivity. Qed.
Lemma F_ok : table_ok F_sg F_st F_rx = true.
Proof. vm_compute. reflexivity. Qed.
Definition F_root : rx := Eval vm_compute in simp F_sg (st_of F_st) (cf_of F_st) al_Root.
Lemma F_root_ok : simp F_sg (st_of F_st) (cf_of F_st) al_Root = F_root.
Proof. vm_compute. reflexivity. Qed.
Transparent others.
Definition F_tbl : cnt -> rx := tbl' (rx_of F_rx) G_TanruUnit2 6.
Lemma F_armed : armed 6 (rx_of F_rx G_TanruUnit2).
Proof. vm_compute. reflexivity. Qed.
Lemma F_blind x : blind (F_tbl x) = true.
Proof.
  assert (H : forallb (fun x => blind (F_tbl x)) all_cnts = true) by (vm_compute; reflexivity).
  rewrite forallb_forall in H. apply H, all_cnts_complete.
Qed.
Opaque others.

Theorem same_kind toks toks' : alikes toks toks' -> accepted toks -> accepted toks'.
Proof.
  intros Ha H. assert (Ho : forall l : list token, Forall (fun t => F_sg (selmaho t) = true) l) by (intros l; apply Forall_forall; reflexivity).
  destruct (table_accepts _ _ _ _ F_rx_table F_ok F_root_ok _ (Ho toks)) as [A _].
  destruct (table_accepts _ _ _ _ F_rx_table F_ok F_root_ok _ (Ho toks')) as [A' (r & Hr)].
  apply A in H. apply A'. assert (M : forall e i r, X (rx_of F_rx) e i r -> X F_tbl e i r) by (apply merged; [apply F_armed|intros x; apply is_nt_eq]).
  apply M in H. destruct (exchange F_tbl F_blind _ _ _ H) with (i' := toks') as (r' & B & C); [vm_compute; reflexivity|exact Ha|].
  pose proof (X_det _ _ _ _ (M _ _ _ Hr) _ B) as ->. destruct r' as [j| |]; cbn in C; try contradiction. inversion C; subst. exact Hr.
Qed.

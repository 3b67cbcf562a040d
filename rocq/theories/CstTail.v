(** CstTail.v -- terminators at the end of a text: what the parser does on
    [i ++ [t]] compared with [i], for words [t] that are only ever optional. *)
From Verif Require Import Base Span Selmaho Lex Cst CstRules CstApi CstMeta CstTotal SpecCst CstTree CstBalance CstThms CstSimp CstIndic.
From Coq Require Import Lia Arith.

Section Tail.
Context (tbl : cnt -> rx) (f : Selmaho).

(** ** Approximations: may succeed without consuming; may consume exactly [f] at the end *)
Context (nl et : cnt -> bool).
Fixpoint nul (e : rx) : bool :=
  match e with
  | XFail | XTok _ | XAny _ | XConsume _ => false
  | XNil | XOpt _ | XLoop _ | XTill _ _ | XBad => true
  | XCall x => nl x
  | XSeq a b => nul a && nul b
  | XAlt a b => nul a || nul b
  | XNotThen _ a | XNotAfter a _ | XCut a => nul a
  end.
Fixpoint eat (e : rx) : bool :=
  match e with
  | XFail | XNil => false
  | XTok s => sel_eqb s f
  | XAny _ | XTill _ _ | XBad => true
  | XCall x => et x
  | XSeq a b => (eat a && nul b) || (nul a && eat b)
  | XAlt a b => eat a || eat b
  | XOpt a | XLoop a | XNotThen _ a | XNotAfter a _ | XConsume a | XCut a => eat a
  end.
Context (Hnl : forall x, nul (tbl x) = true -> nl x = true) (Het : forall x, eat (tbl x) = true -> et x = true).

Lemma nul_ok e i r : X tbl e i r -> r = Ok i -> nul e = true.
Proof.
  intros H. pose proof H as HX. revert HX. induction H; intros HX E; try discriminate; cbn [nul]; auto; subst.
  - injection E as E. apply (f_equal (@List.length token)) in E. cbn in E. lia.
  - injection E as E. apply (f_equal (@List.length token)) in E. cbn in E. lia.
  - destruct (X_suffix _ _ _ _ H _ eq_refl) as (m1 & ->). destruct (X_suffix _ _ _ _ H0 _ eq_refl) as (m2 & E).
    apply (f_equal (@List.length token)) in E. rewrite !app_length in E. assert (m1 = []) as -> by (destruct m1; [reflexivity|cbn in E; lia]).
    rewrite (IHX1 H eq_refl), (IHX2 H0 eq_refl). reflexivity.
  - injection E as ->. rewrite (IHX H eq_refl). reflexivity.
  - rewrite (IHX2 H0 eq_refl). apply orb_true_r.
  - injection E as ->. congruence.
Qed.

Lemma eat_ok e i r : X tbl e i r -> forall t, selmaho t = f -> i = [t] -> r = Ok [] -> eat e = true.
Proof.
  intros H. pose proof H as HX. revert HX. induction H; intros HX t0 Et Ei E; try discriminate; cbn [eat]; auto; subst; try discriminate E; try (injection E as ->); eauto.
  - injection Ei as ->. rewrite Et. apply sel_eqb_refl.
  - destruct (X_suffix _ _ _ _ H _ eq_refl) as (m1 & Em). destruct m1 as [|u m1].
    + cbn in Em. subst j. rewrite (nul_ok _ _ _ H eq_refl). rewrite (IHX2 H0 _ Et eq_refl eq_refl). apply orb_true_r.
    + injection Em as -> Em. symmetry in Em. apply app_eq_nil in Em as [-> ->]. rewrite (IHX1 H _ Et eq_refl eq_refl). rewrite (nul_ok _ _ _ H0 eq_refl). reflexivity.
  - rewrite (IHX H _ Et eq_refl eq_refl). reflexivity.
  - rewrite (IHX2 H0 _ Et eq_refl eq_refl). apply orb_true_r.
  - destruct (X_suffix _ _ _ _ H _ eq_refl) as (m1 & Em). destruct m1 as [|u m1]; [cbn in Em; subst j; congruence|].
    injection Em as -> Em. symmetry in Em. apply app_eq_nil in Em as [-> ->]. eauto.
Qed.

(** ** The simulation *)
Definition atom : rx := XSeq (XLoop (XCall G_Bahe)) (XSeq (XTok f) (XOpt (XCall G_Indicators))).
Context (cs : cnt -> bool).
Definition rx_atom1 (e : rx) : bool :=
  match e with
  | XSeq (XLoop a) (XSeq (XTok s) (XOpt b)) => calls G_Bahe a && sel_eqb s f && calls G_Indicators b
  | _ => false
  end.
Definition rx_atom (e : rx) : bool :=
  match e with
  | XSeq a b => rx_atom1 e || (rx_atom1 a && calls G_Frees b)
  | _ => false
  end.
Lemma rx_atom1_eq e : rx_atom1 e = true -> e = atom.
Proof.
  destruct e; try discriminate. destruct e1; try discriminate. destruct e2; try discriminate. destruct e2_1; try discriminate. destruct e2_2; try discriminate.
  cbn. intros H. apply andb_true_iff in H as [H H3]. apply andb_true_iff in H as [H1 H2]. apply calls_eq in H1, H3. apply sel_eqb_eq in H2. subst. reflexivity.
Qed.
Lemma rx_atom_eq e : rx_atom e = true -> e = atom \/ e = XSeq atom (XCall G_Frees).
Proof.
  destruct e; try discriminate. unfold rx_atom. intros H. apply orb_true_iff in H as [H|H]; [left; apply rx_atom1_eq, H|right].
  apply andb_true_iff in H as [H1 H2]. apply rx_atom1_eq in H1 as ->. apply calls_eq in H2 as ->. reflexivity.
Qed.

Fixpoint chk (e : rx) : bool :=
  match e with
  | XFail | XNil => true
  | XTok s => negb (sel_eqb s f)
  | XCall x => cs x
  | XOpt a => rx_atom a || chk a
  | XSeq a b | XAlt a b | XNotThen a b | XNotAfter a b => chk a && chk b
  | XLoop a | XConsume a => chk a && negb (eat a)
  | XCut a => chk a
  | XBad | XAny _ | XTill _ _ => false
  end.
Context (Hcs : forall x, cs x = true -> chk (tbl x) = true)
  (Hbahe : tbl G_Bahe = XTok S_Bahe) (Hfb : f <> S_Bahe) (Hie : X tbl (XOpt (XCall G_Indicators)) [] (Ok []))
  (Hfe : X tbl (XCall G_Frees) [] (Ok [])).

(** the text does not end with ba'e *)
Definition nb (i : list token) : Prop := forall m t, i = m ++ [t] -> selmaho t <> S_Bahe.
Lemma nb_suffix m j : nb (m ++ j) -> nb j.
Proof. intros H m' t ->. apply (H (m ++ m')). apply app_assoc. Qed.

Inductive rel (t : token) : xres -> xres -> Prop :=
| rel_same j : rel t (Ok (j ++ [t])) (Ok j)
| rel_done : rel t (Ok []) (Ok [])
| rel_er : rel t Er Er
| rel_fa : rel t Fa Fa.

Lemma rel_nil t e r : X tbl e [] r -> rel t r r.
Proof.
  intros H. destruct r as [j| |]; try constructor. destruct (X_suffix _ _ _ _ H _ eq_refl) as (m & E). symmetry in E. apply app_eq_nil in E as [_ ->]. apply rel_done.
Qed.
Lemma rel_ok t j0 r : rel t (Ok j0) r -> (exists j, r = Ok j /\ j0 = j ++ [t]) \/ (r = Ok [] /\ j0 = []).
Proof. inversion 1; subst; eauto. Qed.
Lemma rel_er_inv t r : rel t Er r -> r = Er.
Proof. inversion 1. reflexivity. Qed.
Lemma rel_fa_inv t r : rel t Fa r -> r = Fa.
Proof. inversion 1. reflexivity. Qed.

Lemma skipb_tail i t : selmaho t = f -> skipb (i ++ [t]) = skipb i ++ [t].
Proof.
  intros Et. induction i as [|u i IH].
  - cbn. unfold is_bahe. destruct (sel_eqb (selmaho t) S_Bahe) eqn:E; [|reflexivity]. apply sel_eqb_eq in E. congruence.
  - cbn. destruct (is_bahe u); [exact IH|reflexivity].
Qed.
Lemma skipb_nb i : nb i -> skipb i = [] -> i = [].
Proof.
  intros Hn Hs. destruct i as [|u i] using rev_ind; [reflexivity|exfalso]. specialize (Hn _ _ eq_refl).
  clear -Hn Hs. induction i as [|v i IH]; cbn in Hs.
  - unfold is_bahe in Hs. destruct (sel_eqb (selmaho u) S_Bahe) eqn:E; [apply sel_eqb_eq in E; congruence|discriminate].
  - destruct (is_bahe v); [auto|discriminate].
Qed.

(** [f] itself, in the places where it is optional *)
Definition m2 (e : rx) : Prop := e = XTok f \/ e = XSeq (XTok f) (XOpt (XCall G_Indicators)) \/ e = atom \/ e = XSeq atom (XCall G_Frees).
Definition exc (i : list token) (r0 r : xres) : Prop := i = [] /\ r0 = Ok [] /\ r = Er.

Context (Hci : chk (XOpt (XCall G_Indicators)) = true) (Hcfr : chk (XCall G_Frees) = true).

Definition Q1 e i0 r0 := forall t i, selmaho t = f -> i0 = i ++ [t] -> nb i -> chk e = true -> exists r, X tbl e i r /\ rel t r0 r.
Definition Q2 e i0 r0 := forall t i, selmaho t = f -> i0 = i ++ [t] -> nb i -> m2 e -> exists r, X tbl e i r /\ (rel t r0 r \/ exc i r0 r).

Lemma nb_ok e i j : X tbl e i (Ok j) -> nb i -> nb j.
Proof. intros H. destruct (X_suffix _ _ _ _ H _ eq_refl) as (m & ->). apply nb_suffix. Qed.

Ltac nbt := first [assumption | eapply nb_ok; eassumption].
Ltac go a i :=
  match goal with
  | Et : selmaho ?t = f, IH : Q1 a _ _ |- _ =>
      let r := fresh "r" in let A := fresh "A" in let B := fresh "B" in
      destruct (IH t i Et eq_refl ltac:(nbt) ltac:(assumption)) as (r & A & B); clear IH;
      first [ apply rel_er_inv in B; subst r | apply rel_fa_inv in B; subst r
            | apply rel_ok in B as [(?k & -> & ->)|[-> ->]] | idtac ]
  end.
Ltac fin := match goal with B : rel _ _ ?r |- _ => exists r; split; [|exact B] | H : X tbl _ [] ?r |- _ => exists r; split; [|eapply rel_nil; exact H] end.

Theorem tail_sim e i0 r0 : X tbl e i0 r0 -> Q1 e i0 r0 /\ Q2 e i0 r0.
Proof.
  intros H. pose proof H as HX. revert HX. induction H; intros HX;
    repeat match goal with
    | H : X tbl ?a ?i ?r, IH : X tbl ?a ?i ?r -> _ |- _ => specialize (IH H); destruct IH as [? ?]
    end;
    (split; [unfold Q1; intros t0 i1 Et Ei Hn Hc; try discriminate Hc; pose proof Hc as Hc0; cbn [chk] in Hc; try (apply andb_true_iff in Hc as [? ?])|unfold Q2; intros t0 i1 Et Ei Hn [Hc|[Hc|[Hc|Hc]]]; try discriminate Hc]); subst.
  - exists Er. split; constructor.
  - exists (Ok i1). split; constructor.
  - (* token *) destruct i1 as [|u i1]; cbn in Ei; injection Ei as -> ->.
    + rewrite Et, sel_eqb_refl in Hc. discriminate.
    + exists (Ok i1). split; constructor. reflexivity.
  - injection Hc as Hc. destruct i1 as [|u i1]; cbn in Ei; injection Ei as -> ->.
    + exists Er. split; [constructor|]. right. split; auto.
    + exists (Ok i1). split; [constructor; reflexivity|left; constructor].
  - destruct i1 as [|u i1]; cbn in Ei; injection Ei as -> ->; exists Er; split; constructor. assumption.
  - injection Hc as ->. destruct i1 as [|u i1]; cbn in Ei; injection Ei as -> ->; exists Er; (split; [constructor; try assumption|left; constructor]).
  - destruct i1; discriminate.
  - destruct i1; discriminate.
  - (* call *) apply Hcs in Hc. go (tbl x) i1. fin. constructor. assumption.
  - (* seq *) go a i1.
    + go b k. fin. eapply x_seq; eassumption.
    + exists r. split; [eapply x_seq; eassumption|eapply rel_nil; eassumption].
  - injection Hc as -> ->. match goal with IH : Q2 (XTok f) _ _ |- _ => destruct (IH t0 i1 Et eq_refl Hn (or_introl eq_refl)) as (r' & A & B) end.
    destruct B as [B|(-> & B1 & B2)].
    + apply rel_ok in B as [(k & -> & ->)|[-> ->]].
      * go (XOpt (XCall G_Indicators)) k. match goal with B : rel _ _ ?q |- _ => exists q; split; [|left; exact B] end. (eapply x_seq; eassumption).
      * exists r. split; [eapply x_seq; eassumption|left; eapply rel_nil; eassumption].
    + subst r'. injection B1 as ->. pose proof (X_det _ _ _ _ H0 _ Hie) as ->. exists Er. split; [apply x_seq_no; exact A|]. right. split; auto.
  - injection Hc as -> ->. pose proof (X_bahe_is _ Hbahe _ _ H) as E. injection E as ->. rewrite (skipb_tail _ _ Et) in *.
    match goal with IH : Q2 (XSeq (XTok f) _) _ _ |- _ => destruct (IH t0 (skipb i1) Et eq_refl) as (r' & A & B) end.
    { destruct (skipb_suffix i1) as (m & Hm). rewrite Hm in Hn. apply nb_suffix in Hn. exact Hn. }
    { right; left. reflexivity. }
    exists r'. split; [eapply x_seq; [apply X_bahe, Hbahe|exact A]|]. destruct B as [B|(B0 & B1 & B2)]; [left; exact B|right]. split; [apply skipb_nb; assumption|auto].
  - injection Hc as -> ->. match goal with IH : Q2 atom _ _ |- _ => destruct (IH t0 i1 Et eq_refl Hn (or_intror (or_intror (or_introl eq_refl)))) as (r' & A & B) end.
    destruct B as [B|(-> & B1 & B2)].
    + apply rel_ok in B as [(k & -> & ->)|[-> ->]].
      * go (XCall G_Frees) k. match goal with B : rel _ _ ?q |- _ => exists q; split; [|left; exact B] end. eapply x_seq; eassumption.
      * exists r. split; [eapply x_seq; eassumption|left; eapply rel_nil; eassumption].
    + subst r'. injection B1 as ->. pose proof (X_det _ _ _ _ H0 _ Hfe) as ->. exists Er. split; [apply x_seq_no; exact A|]. right. split; auto.
  - go a i1. exists Er. split; [apply x_seq_no; assumption|constructor].
  - injection Hc as -> ->. match goal with IH : Q2 (XTok f) _ _ |- _ => destruct (IH t0 i1 Et eq_refl Hn (or_introl eq_refl)) as (r' & A & B) end.
    destruct B as [B|(-> & B1 & B2)]; [|discriminate]. apply rel_er_inv in B as ->. exists Er. split; [apply x_seq_no; exact A|left; constructor].
  - injection Hc as -> ->. pose proof (X_bahe_is _ Hbahe _ _ H) as E. discriminate E.
  - injection Hc as -> ->. match goal with IH : Q2 atom _ _ |- _ => destruct (IH t0 i1 Et eq_refl Hn (or_intror (or_intror (or_introl eq_refl)))) as (r' & A & B) end.
    destruct B as [B|(-> & B1 & B2)]; [|discriminate]. apply rel_er_inv in B as ->. exists Er. split; [apply x_seq_no; exact A|left; constructor].
  - (* alt *) go a i1.
    + eexists. split; [apply x_alt_l; eassumption|constructor].
    + eexists. split; [apply x_alt_l; eassumption|constructor].
  - go a i1. go b i1. fin. apply x_alt_r; assumption.
  - (* opt *) apply orb_true_iff in Hc as [Hc|Hc].
    + match goal with IH : Q2 a _ _ |- _ => destruct (IH t0 i1 Et eq_refl Hn (or_intror (or_intror (rx_atom_eq _ Hc)))) as (r' & A & B) end.
      destruct B as [B|(-> & B1 & B2)].
      * apply rel_ok in B as [(k & -> & ->)|[-> ->]]; eexists; (split; [apply x_opt; exact A|constructor]).
      * subst r'. injection B1 as ->. exists (Ok []). split; [apply x_opt_no; exact A|constructor].
    + go a i1; eexists; (split; [apply x_opt; eassumption|constructor]).
  - apply orb_true_iff in Hc as [Hc|Hc].
    + match goal with IH : Q2 a _ _ |- _ => destruct (IH t0 i1 Et eq_refl Hn (or_intror (or_intror (rx_atom_eq _ Hc)))) as (r' & A & B) end.
      destruct B as [B|(-> & B1 & B2)]; [|discriminate]. apply rel_er_inv in B as ->. eexists; (split; [apply x_opt_no; exact A|constructor]).
    + go a i1. eexists; (split; [apply x_opt_no; eassumption|constructor]).
  - (* loop *) go a i1. eexists; (split; [apply x_loop_end; eassumption|constructor]).
  - match goal with N : negb (eat a) = true |- _ => apply negb_true_iff in N as Neat end. go a i1.
    + go (XLoop a) k. fin. eapply x_loop_more; [eassumption| |eassumption]. rewrite !app_length in *. cbn in *. lia.
    + destruct i1 as [|u i1].
      * exfalso. rewrite (eat_ok _ _ _ H t0) in Neat; auto. discriminate.
      * exists r. split; [eapply x_loop_more; [eassumption| |eassumption]; discriminate|eapply rel_nil; eassumption].
  - go a i1.
    + exists Er. split; [|constructor]. eapply x_loop_stuck; [eassumption|]. rewrite !app_length in *. cbn in *. lia.
    + rewrite app_length in *. cbn in *. lia.
  - (* not then *) go p i1; exists Er; (split; [eapply x_nt_hit; eassumption|constructor]).
  - go p i1. go a i1. fin. apply x_nt; assumption.
  - (* not after *) go a i1. exists Er. split; [apply x_na_no; assumption|constructor].
  - go a i1.
    + go p k0; exists Er; (split; [eapply x_na_hit; eassumption|constructor]).
    + exists Er. split; [eapply x_na_hit; eassumption|constructor].
  - go a i1.
    + go p k. eexists. split; [apply x_na; eassumption|constructor].
    + eexists. split; [apply x_na; eassumption|constructor].
  - (* consume *) go a i1. exists Er. split; [apply x_co_no; assumption|constructor].
  - go a i1.
    + exists Er. split; [|constructor]. eapply x_co_stuck; [eassumption|]. rewrite !app_length in *. cbn in *. lia.
    + rewrite app_length in *. cbn in *. lia.
  - match goal with N : negb (eat a) = true |- _ => apply negb_true_iff in N as Neat end. go a i1.
    + eexists. split; [apply x_co; [eassumption|]|constructor]. rewrite !app_length in *. cbn in *. lia.
    + destruct i1 as [|u i1].
      * exfalso. rewrite (eat_ok _ _ _ H t0) in Neat; auto. discriminate.
      * eexists. split; [apply x_co; [eassumption|discriminate]|constructor].
  - (* failures *) go a i1. exists Fa. split; [apply x_seq_fa; assumption|constructor].
  - injection Hc as -> ->. inversion H.
  - injection Hc as -> ->. pose proof (X_bahe_is _ Hbahe _ _ H) as E. discriminate E.
  - injection Hc as -> ->. match goal with IH : Q2 atom _ _ |- _ => destruct (IH t0 i1 Et eq_refl Hn (or_intror (or_intror (or_introl eq_refl)))) as (r' & A & B) end.
    destruct B as [B|(-> & B1 & B2)]; [|discriminate]. apply rel_fa_inv in B as ->. exists Fa. split; [apply x_seq_fa; exact A|left; constructor].
  - go a i1. exists Fa. split; [apply x_alt_fa; assumption|constructor].
  - apply orb_true_iff in Hc as [Hc|Hc].
    + match goal with IH : Q2 a _ _ |- _ => destruct (IH t0 i1 Et eq_refl Hn (or_intror (or_intror (rx_atom_eq _ Hc)))) as (r' & A & B) end.
      destruct B as [B|(-> & B1 & B2)]; [|discriminate]. apply rel_fa_inv in B as ->. eexists; (split; [apply x_opt_fa; exact A|constructor]).
    + go a i1. exists Fa. split; [apply x_opt_fa; assumption|constructor].
  - go a i1. exists Fa. split; [apply x_loop_fa; assumption|constructor].
  - go p i1. exists Fa. split; [apply x_nt_fa; assumption|constructor].
  - go a i1. exists Fa. split; [apply x_na_fa; assumption|constructor].
  - go a i1.
    + go p k. exists Fa. split; [eapply x_na_fa2; eassumption|constructor].
    + exists Fa. split; [eapply x_na_fa2; eassumption|constructor].
  - go a i1. exists Fa. split; [apply x_co_fa; assumption|constructor].
  - go a i1; eexists; (split; [apply x_cut; eassumption|constructor]).
  - go a i1. exists Fa. split; [apply x_cut_fa; assumption|constructor].
  - go a i1. exists Fa. split; [apply x_cut_er; assumption|constructor].
Qed.
End Tail.

(** * The alphabet without quoting words *)
Definition T_sg (s : Selmaho) : bool := negb (mem quoting s).
Definition T_st : list (status * bool) := Eval vm_compute in st_table T_sg 40.
Definition T_rx : list rx := Eval vm_compute in rx_table T_sg T_st.
Lemma T_rx_table : T_rx = rx_table T_sg T_st.
Proof. vm_compute. reflexivity. Qed.
Lemma T_ok : table_ok T_sg T_st T_rx = true.
Proof. vm_compute. reflexivity. Qed.
Lemma T_root : simp T_sg (st_of T_st) (cf_of T_st) al_Root = XCall G_Text.
Proof. vm_compute. reflexivity. Qed.

Definition bt (tb : list bool) (x : cnt) : bool := nth (cnt_idx x) tb false.
Definition T_nl : list bool := Eval vm_compute in
  CstTotal.iter 40 (fun tb => map (fun x => nul (bt tb) (rx_of T_rx x)) all_cnts) (map (fun _ => false) all_cnts).
Definition T_et (f : Selmaho) : list bool :=
  CstTotal.iter 12 (fun tb => map (fun x => eat f (bt T_nl) (bt tb) (rx_of T_rx x)) all_cnts) (map (fun _ => false) all_cnts).
Definition T_cs (x : cnt) : bool := negb (existsb (is_nt x) [G_BuInner; G_ZoiDelimiter; G_ZoiText]).
Definition T_check (f : Selmaho) : bool :=
  let et := T_et f in
  forallb (fun x => implb (nul (bt T_nl) (rx_of T_rx x)) (bt T_nl x) && implb (eat f (bt T_nl) (bt et) (rx_of T_rx x)) (bt et x) &&
                    implb (T_cs x) (chk f (bt T_nl) (bt et) T_cs (rx_of T_rx x))) all_cnts.

Definition T_elidable : list Selmaho :=
  [S_Beho; S_Boi; S_Dohu; S_Fehu; S_Gehu; S_Kei; S_Kuhe; S_Kuho; S_Lihu; S_Loho; S_Luhu; S_Mehu; S_Nuhu; S_Raho; S_Sehu; S_Tehu; S_Toi; S_Tuhu; S_Vau; S_Veho].
Lemma T_checked : forallb T_check (S_Faho :: T_elidable) = true.
Proof. vm_compute. reflexivity. Qed.

Lemma T_over toks : ~ quotes toks -> Forall (fun t => T_sg (selmaho t) = true) toks.
Proof.
  intros Hq. apply Forall_forall. intros t Ht. unfold T_sg. apply negb_true_iff, mem_notin. intros E.
  apply Hq. exists (selmaho t). split; [exact E|]. exists t. auto.
Qed.
Lemma T_bahe : rx_of T_rx G_Bahe = XTok S_Bahe.
Proof. vm_compute. reflexivity. Qed.
Lemma T_ie : X (rx_of T_rx) (XOpt (XCall G_Indicators)) [] (Ok []).
Proof. eapply (table_run _ _ _ (GOpt (GCall G_Indicators)) _ 100 [] [] _ T_rx_table T_ok); [vm_compute; reflexivity|discriminate|constructor|vm_compute; reflexivity]. Qed.
Lemma T_fe : X (rx_of T_rx) (XCall G_Frees) [] (Ok []).
Proof. eapply (table_run _ _ _ (GCall G_Frees) _ 200 [] [] _ T_rx_table T_ok); [vm_compute; reflexivity|discriminate|constructor|vm_compute; reflexivity]. Qed.

Lemma T_sim f t i r0 : T_check f = true -> f <> S_Bahe -> selmaho t = f -> nb i -> X (rx_of T_rx) (XCall G_Text) (i ++ [t]) r0 ->
  exists r, X (rx_of T_rx) (XCall G_Text) i r /\ rel t r0 r.
Proof.
  intros Hc Hf Et Hn H. unfold T_check in Hc. cbv zeta in Hc. rewrite forallb_forall in Hc.
  assert (C : forall x, (nul (bt T_nl) (rx_of T_rx x) = true -> bt T_nl x = true) /\ (eat f (bt T_nl) (bt (T_et f)) (rx_of T_rx x) = true -> bt (T_et f) x = true) /\
    (T_cs x = true -> chk f (bt T_nl) (bt (T_et f)) T_cs (rx_of T_rx x) = true)).
  { intros x. specialize (Hc x (all_cnts_complete x)). apply andb_true_iff in Hc as [Hc H3]. apply andb_true_iff in Hc as [H1 H2].
    split; [|split]; intros E; rewrite E in *; assumption. }
  destruct (tail_sim (rx_of T_rx) f (bt T_nl) (bt (T_et f))) with (cs := T_cs) (e := XCall G_Text) (i0 := i ++ [t]) (r0 := r0) as [Q _]; try apply C; auto.
  - exact T_ie.
  - exact T_fe.
Qed.

Lemma nb_app i t : selmaho t <> S_Bahe -> nb (i ++ [t]).
Proof. intros H m u E. apply app_inj_tail in E as [_ ->]. exact H. Qed.

Theorem drop_last toks t : In (selmaho t) (S_Faho :: T_elidable) -> ~ quotes toks -> nb toks -> accepted (toks ++ [t]) -> accepted toks.
Proof.
  intros Hi Hq Hn Ha. pose proof T_checked as Hc. rewrite forallb_forall in Hc. specialize (Hc _ Hi).
  assert (Hb : selmaho t <> S_Bahe) by (intros E; rewrite E in Hi; vm_compute in Hi; repeat destruct Hi as [Hi|Hi]; discriminate || exact Hi).
  assert (Hq' : T_sg (selmaho t) = true) by (clear -Hi; destruct Hi as [<-|Hi]; [reflexivity|]; repeat (destruct Hi as [<-|Hi]; [reflexivity|]); destruct Hi).
  pose proof (T_over _ Hq) as Ho.
  assert (Ho' : Forall (fun t => T_sg (selmaho t) = true) (toks ++ [t])) by (apply Forall_app; split; [exact Ho|repeat constructor; exact Hq']).
  destruct (table_accepts _ _ _ _ T_rx_table T_ok T_root _ Ho) as [A _].
  destruct (table_accepts _ _ _ _ T_rx_table T_ok T_root _ Ho') as [A' _].
  apply A. apply A' in Ha. destruct (T_sim _ t toks _ Hc Hb eq_refl Hn Ha) as (r & Hx & Hr).
  apply rel_ok in Hr as [(j & -> & E)|[-> _]]; [destruct j; discriminate|exact Hx].
Qed.

Lemma drop_many ts : forall toks, (forall t, In t ts -> In (selmaho t) T_elidable) -> ~ quotes toks -> nb toks -> accepted (toks ++ ts) -> accepted toks.
Proof.
  induction ts as [|t ts IH] using rev_ind; intros toks Ht Hq Hn Ha; [rewrite app_nil_r in Ha; exact Ha|].
  apply IH; auto; [intros u Hu; apply Ht, in_or_app; auto|].
  rewrite app_assoc in Ha. apply drop_last with t; auto.
  - right. apply Ht, in_or_app. right. left. reflexivity.
  - intros (s & Hs & u & Hu & E). apply in_app_or in Hu as [Hu|Hu]; [apply Hq; exists s; split; [exact Hs|exists u; auto]|].
    assert (In s T_elidable) by (subst s; apply Ht, in_or_app; auto).
    clear -H Hs. vm_compute in H, Hs. repeat (destruct Hs as [<-|Hs]; [repeat (destruct H as [H|H]; [discriminate|]); destruct H|]). destruct Hs.
  - destruct ts as [|v ts] using rev_ind; [rewrite app_nil_r; exact Hn|]. rewrite app_assoc. apply nb_app. intros E.
    assert (H : In (selmaho v) T_elidable) by (apply Ht, in_or_app; left; apply in_or_app; right; left; reflexivity).
    rewrite E in H. vm_compute in H. repeat (destruct H as [H|H]; [discriminate|]). destruct H.
Qed.

(** fa'o may be added *)
Lemma T_text : exists a b c d, rx_of T_rx G_Text = XSeq a (XSeq b (XSeq c (XSeq d (XOpt (atom S_Faho))))).
Proof. do 4 eexists. vm_compute. reflexivity. Qed.

Lemma X_atom_one f t : selmaho t = f -> f <> S_Bahe -> X (rx_of T_rx) (atom f) [t] (Ok []).
Proof.
  intros Et Hb. eapply x_seq; [apply X_bahe, T_bahe|]. cbn. unfold is_bahe. destruct (sel_eqb (selmaho t) S_Bahe) eqn:E; [apply sel_eqb_eq in E; congruence|].
  eapply x_seq; [constructor; exact Et|exact T_ie].
Qed.

Lemma X_seq_inv tbl a b i j : X tbl (XSeq a b) i (Ok j) -> exists k, X tbl a i (Ok k) /\ X tbl b k (Ok j).
Proof. intros H. inversion H; subst. eauto. Qed.
Lemma X_opt_inv tbl a i j : X tbl (XOpt a) i (Ok j) -> X tbl a i (Ok j) \/ (j = i /\ X tbl a i Er).
Proof. intros H. inversion H; subst; auto. Qed.
Lemma X_tok_inv tbl s i j : X tbl (XTok s) i (Ok j) -> exists u, i = u :: j /\ selmaho u = s.
Proof. intros H. inversion H; subst. eauto. Qed.

Theorem add_faho toks t : selmaho t = S_Faho -> ~ quotes toks -> ~ contains S_Faho toks -> accepted toks -> nb toks -> accepted (toks ++ [t]).
Proof.
  intros Et Hq Hf Ha Hn. pose proof T_checked as Hc. cbn [forallb] in Hc. apply andb_true_iff in Hc as [Hc _].
  pose proof (T_over _ Hq) as Ho.
  assert (Ho' : Forall (fun t => T_sg (selmaho t) = true) (toks ++ [t])) by (apply Forall_app; split; [exact Ho|repeat constructor; rewrite Et; reflexivity]).
  destruct (table_accepts _ _ _ _ T_rx_table T_ok T_root _ Ho) as [A _].
  destruct (table_accepts _ _ _ _ T_rx_table T_ok T_root _ Ho') as [A' (r & Hr)].
  apply A in Ha. apply A'. destruct (T_sim _ t toks _ Hc ltac:(discriminate) Et Hn Hr) as (r' & Hx & Hrel).
  pose proof (X_det _ _ _ _ Ha _ Hx) as <-. inversion Hrel; subst; [|exact Hr]. exfalso. cbn [app] in Hr.
  destruct T_text as (a & b & c & d & E).
  assert (Hr' : X (rx_of T_rx) (XSeq a (XSeq b (XSeq c (XSeq d (XOpt (atom S_Faho)))))) (toks ++ [t]) (Ok [t])) by (inversion Hr; subst; rewrite E in *; assumption).
  clear Hr E. apply X_seq_inv in Hr' as (j1 & P1 & Hr). apply X_seq_inv in Hr as (j2 & P2 & Hr). apply X_seq_inv in Hr as (j3 & P3 & Hr). apply X_seq_inv in Hr as (j4 & P4 & Hr).
  destruct (X_suffix _ _ _ _ P1 _ eq_refl) as (m1 & E1). destruct (X_suffix _ _ _ _ P2 _ eq_refl) as (m2 & E2). destruct (X_suffix _ _ _ _ P3 _ eq_refl) as (m3 & E3). destruct (X_suffix _ _ _ _ P4 _ eq_refl) as (m4 & E4).
  apply X_opt_inv in Hr as [Hr|[<- Hr]].
  - apply X_seq_inv in Hr as (j5 & P5 & Hr). apply X_seq_inv in Hr as (j6 & P6 & Hr). apply X_tok_inv in P6 as (u & -> & Eu).
    destruct (X_suffix _ _ _ _ P5 _ eq_refl) as (m5 & E5). destruct (X_suffix _ _ _ _ Hr _ eq_refl) as (m6 & E6).
    apply Hf. exists u. split; [|exact Eu].
    assert (E7 : toks ++ [t] = ((m1 ++ m2 ++ m3 ++ m4 ++ m5) ++ u :: m6) ++ [t]).
    { rewrite E1, E2, E3, E4, E5, E6. repeat (rewrite <- app_assoc; cbn [app]). reflexivity. }
    apply app_inj_tail in E7 as [-> _]. apply in_or_app. right. left. reflexivity.
  - pose proof (X_det _ _ _ _ Hr _ (X_atom_one _ _ Et ltac:(discriminate))). discriminate.
Qed.

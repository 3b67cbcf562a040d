(** CstSimp.v -- a certified partial evaluator for the grammar: on token lists
    whose classes all belong to a given alphabet, every rule acts like a small
    residual expression.  The residual expressions are computed; the theorem
    [simp_sound] says that running the parser agrees with them. *)
From Verif Require Import Base Span Selmaho Lex Cst CstRules CstApi CstMeta CstTotal SpecCst CstTree CstBalance CstThms.
From Coq Require Import Lia Arith.

(** Residual expressions.  [XBad]: not supported. *)
Inductive rx :=
| XBad | XFail | XNil
| XTok (s : Selmaho)
| XAny (but : list Selmaho)
| XCall (x : cnt)
| XSeq (a b : rx)
| XAlt (a b : rx)
| XOpt (a : rx)
| XLoop (a : rx)
| XNotThen (p a : rx)
| XNotAfter (a p : rx)
| XConsume (a : rx)
| XCut (a : rx)
| XTill (f g : rx).

Inductive xres := Ok (j : list token) | Er | Fa.

Section Sem.
Context (tbl : cnt -> rx).

(** [X e i (Ok j)]: [e] succeeds on [i] and leaves [j]; [X e i Er]: it fails;
    [X e i Fa]: it fails and no alternatives are tried ([nom::Err::Failure]). *)
Inductive X : rx -> list token -> xres -> Prop :=
| x_fail i : X XFail i Er
| x_nil i : X XNil i (Ok i)
| x_tok s t r : selmaho t = s -> X (XTok s) (t :: r) (Ok r)
| x_tok_no s t r : selmaho t <> s -> X (XTok s) (t :: r) Er
| x_tok_eof s : X (XTok s) [] Er
| x_any l t r : ~ In (selmaho t) l -> X (XAny l) (t :: r) (Ok r)
| x_any_no l t r : In (selmaho t) l -> X (XAny l) (t :: r) Er
| x_any_eof l : X (XAny l) [] Er
| x_call x i r : X (tbl x) i r -> X (XCall x) i r
| x_seq a b i j r : X a i (Ok j) -> X b j r -> X (XSeq a b) i r
| x_seq_no a b i : X a i Er -> X (XSeq a b) i Er
| x_alt_l a b i j : X a i (Ok j) -> X (XAlt a b) i (Ok j)
| x_alt_r a b i r : X a i Er -> X b i r -> X (XAlt a b) i r
| x_opt a i j : X a i (Ok j) -> X (XOpt a) i (Ok j)
| x_opt_no a i : X a i Er -> X (XOpt a) i (Ok i)
| x_loop_end a i : X a i Er -> X (XLoop a) i (Ok i)
| x_loop_more a i j r : X a i (Ok j) -> List.length j <> List.length i -> X (XLoop a) j r -> X (XLoop a) i r
| x_loop_stuck a i j : X a i (Ok j) -> List.length j = List.length i -> X (XLoop a) i Er
| x_nt_hit p a i j : X p i (Ok j) -> X (XNotThen p a) i Er
| x_nt p a i r : X p i Er -> X a i r -> X (XNotThen p a) i r
| x_na_no p a i : X a i Er -> X (XNotAfter a p) i Er
| x_na_hit p a i j k : X a i (Ok j) -> X p j (Ok k) -> X (XNotAfter a p) i Er
| x_na p a i j : X a i (Ok j) -> X p j Er -> X (XNotAfter a p) i (Ok j)
| x_co_no a i : X a i Er -> X (XConsume a) i Er
| x_co_stuck a i j : X a i (Ok j) -> List.length j = List.length i -> X (XConsume a) i Er
| x_co a i j : X a i (Ok j) -> List.length j <> List.length i -> X (XConsume a) i (Ok j)
| x_seq_fa a b i : X a i Fa -> X (XSeq a b) i Fa
| x_alt_fa a b i : X a i Fa -> X (XAlt a b) i Fa
| x_opt_fa a i : X a i Fa -> X (XOpt a) i Fa
| x_loop_fa a i : X a i Fa -> X (XLoop a) i Fa
| x_nt_fa p a i : X p i Fa -> X (XNotThen p a) i Fa
| x_na_fa a p i : X a i Fa -> X (XNotAfter a p) i Fa
| x_na_fa2 a p i j : X a i (Ok j) -> X p j Fa -> X (XNotAfter a p) i Fa
| x_co_fa a i : X a i Fa -> X (XConsume a) i Fa
| x_cut a i j : X a i (Ok j) -> X (XCut a) i (Ok j)
| x_cut_fa a i : X a i Fa -> X (XCut a) i Fa
| x_cut_er a i : X a i Er -> X (XCut a) i Fa
| x_till_end f g i j : X g i (Ok j) -> X (XTill f g) i (Ok j)
| x_till_more f g i j r : X g i Er -> X f i (Ok j) -> List.length j <> List.length i -> X (XTill f g) j r -> X (XTill f g) i r
| x_till_stuck f g i j : X g i Er -> X f i (Ok j) -> List.length j = List.length i -> X (XTill f g) i Er
| x_till_no f g i : X g i Er -> X f i Er -> X (XTill f g) i Er
| x_till_fa f g i : X g i Fa -> X (XTill f g) i Fa
| x_till_fa2 f g i : X g i Er -> X f i Fa -> X (XTill f g) i Fa.

Lemma X_det e i r : X e i r -> forall r', X e i r' -> r = r'.
Proof.
  induction 1; intros r'; inversion 1; subst; try reflexivity; try congruence; try contradiction;
    repeat match goal with
    | IH : forall r', X ?a ?i r' -> _ = r', H : X ?a ?i _ |- _ =>
        let E := fresh in pose proof (IH _ H) as E; clear H; first [discriminate E | injection E as E; subst | rewrite <- E in * | idtac]
    end; try reflexivity; try congruence; try lia; eauto.
Qed.

(** [cf]: rules without cuts *)
Context (cf : cnt -> bool).
Fixpoint cutless (a : rx) : bool :=
  match a with
  | XBad | XFail | XNil | XTok _ | XAny _ => true
  | XCall x => cf x
  | XCut _ => false
  | XSeq a b | XAlt a b | XNotThen a b | XNotAfter a b | XTill a b => cutless a && cutless b
  | XOpt a | XLoop a | XConsume a => cutless a
  end.
Context (Hcf : forall x, cf x = true -> cutless (tbl x) = true).
Lemma cutless_ok a i r : X a i r -> cutless a = true -> r <> Fa.
Proof.
  induction 1; cbn [cutless]; intros Hc; try discriminate; try (apply andb_true_iff in Hc as [? ?]); try congruence; auto; try (exfalso; auto; fail).
  apply IHX3. cbn [cutless]. apply andb_true_iff. auto.
Qed.
Lemma cutless_fa a i : X a i Fa -> cutless a = false.
Proof. intros H. destruct (cutless a) eqn:E; [|reflexivity]. destruct (cutless_ok _ _ _ H E eq_refl). Qed.

Definition mk_seq (a b : rx) : rx :=
  match a with
  | XBad => XBad
  | XFail => XFail
  | XNil => b
  | _ => match b with XBad => XBad | XFail => if cutless a then XFail else XSeq a b | XNil => a | _ => XSeq a b end
  end.
(** expressions that never fail *)
Definition sure (a : rx) : bool := match a with XNil | XOpt _ => true | _ => false end.
Definition mk_alt (a b : rx) : rx :=
  match a with
  | XBad => XBad
  | XFail => b
  | _ => if sure a then a else match b with XBad => XBad | XFail => a | _ => XAlt a b end
  end.
Definition mk_opt (a : rx) : rx := match a with XBad => XBad | XFail => XNil | XNil => XNil | _ => XOpt a end.
Definition mk_loop (a : rx) : rx := match a with XBad => XBad | XFail => XNil | XNil => XFail | _ => XLoop a end.
Definition mk_nt (p a : rx) : rx :=
  match p with XBad => XBad | XFail => a | XNil => XFail | _ => match a with XBad => XBad | XFail => if cutless p then XFail else XNotThen p a | _ => XNotThen p a end end.
Definition mk_na (a p : rx) : rx :=
  match a with XBad => XBad | XFail => XFail | _ => match p with XBad => XBad | XFail => a | XNil => if cutless a then XFail else XNotAfter a p | _ => XNotAfter a p end end.
Definition mk_co (a : rx) : rx := match a with XBad => XBad | XFail => XFail | XNil => XFail | _ => XConsume a end.
Definition mk_till (f g : rx) : rx := match f, g with XBad, _ | _, XBad => XBad | _, _ => XTill f g end.
Definition mk_cut (a : rx) : rx := match a with XBad => XBad | XNil => XNil | _ => XCut a end.

Ltac inv H := inversion H; subst; clear H.
Ltac ifs := try match goal with |- context [if ?b then _ else _] => destruct b eqn:? end.

Lemma mk_seq_no a b i : X a i Er -> mk_seq a b <> XBad -> X (mk_seq a b) i Er.
Proof. intros H Hb. destruct a; cbn [mk_seq] in *; try congruence; try (inv H; fail); try exact H; destruct b; try congruence; ifs; try apply x_seq_no; try exact H; constructor. Qed.
Lemma mk_seq_ok a b i j r : X a i (Ok j) -> X b j r -> mk_seq a b <> XBad -> X (mk_seq a b) i r.
Proof.
  intros H H2 Hb. destruct a; cbn [mk_seq] in *; try congruence; try (inv H; fail); try (inv H; exact H2);
    destruct b; try congruence; try (inv H2; ifs; [constructor|eapply x_seq; [eassumption|constructor]]; fail); try (inv H2; exact H); eapply x_seq; eassumption.
Qed.
Lemma mk_seq_bad a b i j : X a i (Ok j) -> mk_seq a b <> XBad -> b <> XBad.
Proof. intros H Hm ->. destruct a; cbn [mk_seq] in Hm; try congruence. inv H. Qed.
Lemma mk_seq_bad_l a b : mk_seq a b <> XBad -> a <> XBad.
Proof. intros Hm ->. apply Hm; reflexivity. Qed.
Lemma sure_ok a i : sure a = true -> X a i Er -> False.
Proof. destruct a; try discriminate; intros _ H; inv H. Qed.
Lemma mk_alt_l a b i j : X a i (Ok j) -> mk_alt a b <> XBad -> X (mk_alt a b) i (Ok j).
Proof.
  intros H Hb. unfold mk_alt in *. destruct a; try congruence; try (inv H; fail); cbn [sure] in *; try exact H; destruct b; try congruence; try exact H; apply x_alt_l, H.
Qed.
Lemma mk_alt_r a b i r : X a i Er -> X b i r -> mk_alt a b <> XBad -> X (mk_alt a b) i r.
Proof.
  intros H H2 Hb. unfold mk_alt in *. destruct a; try congruence; try (inv H; fail); cbn [sure] in *; try exact H2; try (exfalso; eapply sure_ok; [|exact H]; reflexivity);
    destruct b; try congruence; try (inv H2; exact H); apply x_alt_r; assumption.
Qed.
Lemma mk_alt_bad_r a b i : X a i Er -> mk_alt a b <> XBad -> b <> XBad.
Proof. intros H Hm ->. unfold mk_alt in Hm. destruct a; try congruence; cbn [sure] in Hm; try congruence; exfalso; eapply sure_ok; try exact H; reflexivity. Qed.
Lemma mk_alt_bad_l a b : mk_alt a b <> XBad -> a <> XBad.
Proof. intros Hm ->. apply Hm; reflexivity. Qed.
Lemma mk_opt_ok a i j : X a i (Ok j) -> X (mk_opt a) i (Ok j).
Proof. intros H. destruct a; cbn; try (apply x_opt, H); inv H; constructor. Qed.
Lemma mk_opt_no a i : X a i Er -> X (mk_opt a) i (Ok i).
Proof. intros H. destruct a; cbn; try (apply x_opt_no, H); inv H; constructor. Qed.
Lemma mk_loop_end a i : X a i Er -> X (mk_loop a) i (Ok i).
Proof. intros H. destruct a; cbn; try (apply x_loop_end, H); inv H; constructor. Qed.
Lemma mk_loop_more a i j r : X a i (Ok j) -> List.length j <> List.length i -> X (mk_loop a) j r -> X (mk_loop a) i r.
Proof. intros H Hl H2. destruct a; cbn in *; try (eapply x_loop_more; eassumption); inv H. congruence. Qed.
Lemma mk_loop_stuck a i j : X a i (Ok j) -> List.length j = List.length i -> X (mk_loop a) i Er.
Proof. intros H Hl. destruct a; cbn in *; try (eapply x_loop_stuck; eassumption); inv H. constructor. Qed.
Lemma mk_loop_bad a : mk_loop a <> XBad -> a <> XBad.
Proof. intros Hm ->. apply Hm; reflexivity. Qed.
Lemma mk_opt_bad a : mk_opt a <> XBad -> a <> XBad.
Proof. intros Hm ->. apply Hm; reflexivity. Qed.
Lemma mk_nt_hit p a i j : X p i (Ok j) -> mk_nt p a <> XBad -> X (mk_nt p a) i Er.
Proof. intros H Hb. destruct p; cbn in Hb |- *; try congruence. all: try (inv H; apply x_fail; fail). all: destruct a; try congruence. all: try match goal with |- context [if ?b then _ else _] => destruct b end. all: first [apply x_fail|eapply x_nt_hit; exact H]. Qed.
Lemma mk_nt_ok p a i r : X p i Er -> X a i r -> mk_nt p a <> XBad -> X (mk_nt p a) i r.
Proof. intros H H2 Hb. destruct p; cbn in *; try congruence; try exact H2; try (inv H; fail); destruct a; try congruence; ifs; try exact H2; apply x_nt; assumption. Qed.
Lemma mk_nt_bad p a i : X p i Er -> mk_nt p a <> XBad -> a <> XBad.
Proof. intros H Hm ->. destruct p; cbn in Hm; try congruence. inv H. Qed.
Lemma mk_nt_bad_l p a : mk_nt p a <> XBad -> p <> XBad.
Proof. intros Hm ->. apply Hm; reflexivity. Qed.
Lemma mk_na_no p a i : X a i Er -> mk_na a p <> XBad -> X (mk_na a p) i Er.
Proof. intros H Hb. destruct a; cbn in *; try congruence; try (inv H; fail); try exact H; destruct p; try congruence; ifs; try exact H; first [apply x_na_no; exact H|apply x_fail]. Qed.
Lemma mk_na_hit p a i j k : X a i (Ok j) -> X p j (Ok k) -> mk_na a p <> XBad -> X (mk_na a p) i Er.
Proof. intros H H2 Hb. destruct a; cbn in *; try congruence; try (inv H; fail); destruct p; try congruence; try (inv H2; fail); ifs; first [eapply x_na_hit; eassumption|apply x_fail]. Qed.
Lemma mk_na_ok p a i j : X a i (Ok j) -> X p j Er -> mk_na a p <> XBad -> X (mk_na a p) i (Ok j).
Proof. intros H H2 Hb. destruct a; cbn in *; try congruence; try (inv H; fail); destruct p; try congruence; try (inv H2; fail); try exact H; apply x_na; assumption. Qed.
Lemma mk_na_bad p a i j : X a i (Ok j) -> mk_na a p <> XBad -> p <> XBad.
Proof. intros H Hm ->. destruct a; cbn in Hm; try congruence. inv H. Qed.
Lemma mk_na_bad_l p a : mk_na a p <> XBad -> a <> XBad.
Proof. intros Hm ->. apply Hm; reflexivity. Qed.
Lemma mk_co_no a i : X a i Er -> X (mk_co a) i Er.
Proof. intros H. destruct a; cbn; try (apply x_co_no, H); inv H. constructor. Qed.
Lemma mk_co_stuck a i j : X a i (Ok j) -> List.length j = List.length i -> X (mk_co a) i Er.
Proof. intros H Hl. destruct a; cbn; try (eapply x_co_stuck; eassumption); inv H. constructor. Qed.
Lemma mk_co_ok a i j : X a i (Ok j) -> List.length j <> List.length i -> X (mk_co a) i (Ok j).
Proof. intros H Hl. destruct a; cbn; try (apply x_co; assumption); inv H. congruence. Qed.
Lemma mk_co_bad a : mk_co a <> XBad -> a <> XBad.
Proof. intros Hm ->. apply Hm; reflexivity. Qed.

Lemma mk_seq_fa a b i : X a i Fa -> mk_seq a b <> XBad -> X (mk_seq a b) i Fa.
Proof. intros H Hb. pose proof (cutless_fa _ _ H) as F. destruct a; cbn [mk_seq cutless] in Hb, F |- *; try congruence; try (inv H; fail); destruct b; try congruence; ifs; try (cbn [cutless] in F; congruence); try exact H; apply x_seq_fa; exact H. Qed.
Lemma mk_alt_fa a b i : X a i Fa -> mk_alt a b <> XBad -> X (mk_alt a b) i Fa.
Proof. intros H Hb. unfold mk_alt in *. destruct a; try congruence; try (inv H; fail); cbn [sure] in *; try exact H; destruct b; try congruence; try exact H; apply x_alt_fa, H. Qed.
Lemma mk_opt_fa a i : X a i Fa -> X (mk_opt a) i Fa.
Proof. intros H. destruct a; cbn; try (apply x_opt_fa, H); inv H. Qed.
Lemma mk_loop_fa a i : X a i Fa -> X (mk_loop a) i Fa.
Proof. intros H. destruct a; cbn; try (apply x_loop_fa, H); inv H. Qed.
Lemma mk_nt_fa p a i : X p i Fa -> mk_nt p a <> XBad -> X (mk_nt p a) i Fa.
Proof. intros H Hb. pose proof (cutless_fa _ _ H) as F. destruct p; cbn in Hb, F |- *; try congruence; try (inv H; fail); destruct a; try congruence; ifs; try (cbn [cutless] in F; congruence); apply x_nt_fa, H. Qed.
Lemma mk_na_fa a p i : X a i Fa -> mk_na a p <> XBad -> X (mk_na a p) i Fa.
Proof. intros H Hb. pose proof (cutless_fa _ _ H) as F. destruct a; cbn in Hb, F |- *; try congruence; try (inv H; fail); destruct p; try congruence; ifs; try (cbn [cutless] in F; congruence); try exact H; apply x_na_fa, H. Qed.
Lemma mk_na_fa2 a p i j : X a i (Ok j) -> X p j Fa -> mk_na a p <> XBad -> X (mk_na a p) i Fa.
Proof. intros H H2 Hb. destruct a; cbn in *; try congruence; try (inv H; fail); destruct p; try congruence; try (inv H2; fail); eapply x_na_fa2; eassumption. Qed.
Lemma mk_co_fa a i : X a i Fa -> X (mk_co a) i Fa.
Proof. intros H. destruct a; cbn; try (apply x_co_fa, H); inv H. Qed.
Lemma mk_cut_bad a : mk_cut a <> XBad -> a <> XBad.
Proof. intros Hm ->. apply Hm; reflexivity. Qed.
Lemma mk_cut_ok a i j : X a i (Ok j) -> X (mk_cut a) i (Ok j).
Proof. intros H. destruct a; cbn; try (apply x_cut, H); inv H; constructor. Qed.
Lemma mk_cut_fa a i : X a i Fa -> X (mk_cut a) i Fa.
Proof. intros H. destruct a; cbn; try (apply x_cut_fa, H); inv H; constructor. Qed.
Lemma mk_cut_er a i : X a i Er -> X (mk_cut a) i Fa.
Proof. intros H. destruct a; cbn; try (apply x_cut_er, H); inv H; constructor. Qed.

Lemma mk_till_eq f g : mk_till f g <> XBad -> mk_till f g = XTill f g /\ f <> XBad /\ g <> XBad.
Proof. intros H. unfold mk_till in *. destruct f, g; try congruence; repeat split; discriminate. Qed.

(** ** Inlining of calls *)
Fixpoint inl (keep : cnt -> bool) (k : nat) : rx -> rx :=
  fix go (e : rx) : rx :=
  match e with
  | XCall x => if keep x then e else match k with O => e | S k => inl keep k (tbl x) end
  | XSeq a b => mk_seq (go a) (go b)
  | XAlt a b => mk_alt (go a) (go b)
  | XOpt a => mk_opt (go a)
  | XLoop a => mk_loop (go a)
  | XNotThen p a => mk_nt (go p) (go a)
  | XNotAfter a p => mk_na (go a) (go p)
  | XConsume a => mk_co (go a)
  | XCut a => mk_cut (go a)
  | XTill f g => mk_till (go f) (go g)
  | _ => e
  end.

Definition inl_step (keep : cnt -> bool) (k : nat) (e : rx) : rx :=
  match e with
  | XCall x => if keep x then e else match k with O => e | S k => inl keep k (tbl x) end
  | XSeq a b => mk_seq (inl keep k a) (inl keep k b)
  | XAlt a b => mk_alt (inl keep k a) (inl keep k b)
  | XOpt a => mk_opt (inl keep k a)
  | XLoop a => mk_loop (inl keep k a)
  | XNotThen p a => mk_nt (inl keep k p) (inl keep k a)
  | XNotAfter a p => mk_na (inl keep k a) (inl keep k p)
  | XConsume a => mk_co (inl keep k a)
  | XCut a => mk_cut (inl keep k a)
  | XTill f g => mk_till (inl keep k f) (inl keep k g)
  | _ => e
  end.
Lemma inl_eq keep k e : inl keep k e = inl_step keep k e.
Proof. destruct k; destruct e; reflexivity. Qed.

Lemma inl_sound keep k : forall e i r, X e i r -> inl keep k e <> XBad -> X (inl keep k e) i r.
Proof.
  induction k as [|k IHk]; intros e i r H; induction H; rewrite inl_eq; cbn [inl_step]; intros Hb;
    try (constructor; assumption; fail);
    try (destruct (keep x); [apply x_call; assumption|]; first [apply IHk; assumption|apply x_call; assumption]);
    first
    [ let E := fresh in destruct (mk_till_eq _ _ Hb) as (E & ? & ?); rewrite E in *
    | pose proof (mk_seq_bad_l _ _ Hb)
    | pose proof (mk_alt_bad_l _ _ Hb)
    | pose proof (mk_nt_bad_l _ _ Hb)
    | pose proof (mk_na_bad_l _ _ Hb)
    | pose proof (mk_co_bad _ Hb)
    | pose proof (mk_opt_bad _ Hb)
    | pose proof (mk_loop_bad _ Hb)
    | pose proof (mk_cut_bad _ Hb) ];
    first
    [ apply mk_seq_no; auto; fail
    | apply mk_seq_fa; auto; fail
    | eapply mk_seq_ok; [auto| |exact Hb]; match goal with IH : _ -> X _ _ _ |- _ => apply IH; eapply mk_seq_bad; [|exact Hb]; eauto end; fail
    | apply mk_alt_l; auto; fail
    | apply mk_alt_fa; auto; fail
    | apply mk_alt_r; [auto| |exact Hb]; match goal with IH : _ -> X _ _ _ |- _ => apply IH; eapply mk_alt_bad_r; [|exact Hb]; eauto end; fail
    | apply mk_opt_ok; auto; fail
    | apply mk_opt_no; auto; fail
    | apply mk_opt_fa; auto; fail
    | apply mk_loop_end; auto; fail
    | apply mk_loop_fa; auto; fail
    | eapply mk_loop_more; [auto|assumption|]; match goal with IH : _ -> X _ _ _ |- _ => rewrite inl_eq in IH; cbn [inl_step] in IH; apply IH; exact Hb end; fail
    | eapply mk_loop_stuck; [auto|assumption]; fail
    | eapply mk_nt_hit; [eauto|exact Hb]; fail
    | apply mk_nt_ok; [auto| |exact Hb]; match goal with IH : _ -> X _ _ _ |- _ => apply IH; eapply mk_nt_bad; [|exact Hb]; eauto end; fail
    | apply mk_nt_fa; auto; fail
    | apply mk_na_no; auto; fail
    | eapply mk_na_hit; [auto| |exact Hb]; match goal with IH : _ -> X _ _ _ |- _ => apply IH; eapply mk_na_bad; [|exact Hb]; eauto end; fail
    | apply mk_na_ok; [auto| |exact Hb]; match goal with IH : _ -> X _ _ _ |- _ => apply IH; eapply mk_na_bad; [|exact Hb]; eauto end; fail
    | apply mk_na_fa; auto; fail
    | eapply mk_na_fa2; [auto| |exact Hb]; match goal with IH : _ -> X _ _ _ |- _ => apply IH; eapply mk_na_bad; [|exact Hb]; eauto end; fail
    | apply mk_co_no; auto; fail
    | eapply mk_co_stuck; [auto|assumption]; fail
    | apply mk_co_ok; auto; fail
    | apply mk_co_fa; auto; fail
    | apply mk_cut_ok; auto; fail
    | apply mk_cut_fa; auto; fail
    | apply mk_cut_er; auto; fail
    | apply x_till_end; auto; fail
    | eapply x_till_more; [auto|auto|assumption|];
        match goal with IH : inl _ _ (XTill _ _) <> XBad -> _ |- _ => rewrite inl_eq in IH; cbn [inl_step] in IH; rewrite ?H2, ?H3, ?H4, ?H5 in IH; apply IH; discriminate end; fail
    | eapply x_till_stuck; [auto|auto|assumption]; fail
    | apply x_till_no; auto; fail
    | apply x_till_fa; auto; fail
    | apply x_till_fa2; auto; fail
    | idtac ].
Qed.
End Sem.

(** * Residuals of the rules *)
Inductive status := SFail | SNull | SLive.

Section Simp.
Context (Sg : Selmaho -> bool) (st : cnt -> status) (cf : cnt -> bool).

Definition some_node (e : gexp cnt) : bool := match e with GNode _ t => somefield cnn t | _ => false end.

Fixpoint simp (e : gexp cnt) : rx :=
  match e with
  | GTok s => if Sg s then XTok s else XFail
  | GAny | GSpan _ => XAny []
  | GCall x => match st x with SFail => XFail | SNull => XNil | SLive => XCall x end
  | GNil => XNil
  | GCons a b => mk_seq cf (simp a) (simp b)
  | GAlt a b => mk_alt (simp a) (simp b)
  | GOpt a => mk_opt (simp a)
  | GLoop _ a => mk_loop (simp a)
  | GMany1 a => mk_seq cf (simp a) (mk_loop (simp a))
  | GManyTill f g => mk_till (simp f) (simp g)
  | GCut a => mk_cut (simp a)
  | GNotThen p a => mk_nt cf (simp p) (simp a)
  | GNotAfter a p => mk_na cf (simp a) (simp p)
  | GConsume _ a => mk_co (simp a)
  | GPost PSomeField a => if some_node a then mk_co (simp a) else XBad
  | GPost (PNotSel l) (GNode _ (GCons GAny GNil)) => XAny l
  | GPost (PNotSel _) _ => XBad
  | GNode _ a => simp a
  end.

Definition residual (x : cnt) : rx := simp (crule x).

Definition rx_eqb_fail (e : rx) : bool := match e with XFail => true | _ => false end.
Definition rx_eqb_nil (e : rx) : bool := match e with XNil => true | _ => false end.
Definition not_bad (e : rx) : bool := match e with XBad => false | _ => true end.
Definition st_ok : bool :=
  forallb (fun x => match st x with SFail => rx_eqb_fail (residual x) | SNull => rx_eqb_nil (residual x) | SLive => not_bad (residual x) end) all_cnts.

Context (tbl : cnt -> rx) (Htbl : forall x, st x = SLive -> tbl x = residual x) (Hok : st_ok = true)
  (Hcf : forall x, cf x = true -> cutless cf (tbl x) = true).

Lemma st_valid x : match st x with SFail => residual x = XFail | SNull => residual x = XNil | SLive => residual x <> XBad end.
Proof.
  unfold st_ok in Hok. rewrite forallb_forall in Hok. specialize (Hok x (all_cnts_complete x)).
  destruct (st x); destruct (residual x); try discriminate; reflexivity.
Qed.

Definition over (i : list token) : Prop := Forall (fun t => Sg (selmaho t) = true) i.

Lemma over_suffix m r : over (m ++ r) -> over r.
Proof. unfold over. rewrite Forall_app. tauto. Qed.
Lemma over_run n e i r v : over i -> grun crule n e i = COk r v -> over r.
Proof. intros H E. apply run_derives in E as (m & -> & _). eapply over_suffix, H. Qed.

Definition agree (n : nat) (e : gexp cnt) (i : list token) : Prop :=
  match grun crule n e i with
  | COut => True
  | COk r _ => X tbl (simp e) i (Ok r)
  | CErr _ => X tbl (simp e) i Er
  | CFail _ => X tbl (simp e) i Fa
  end.

(** all fields empty iff nothing was consumed *)
Lemma optish_empty a m v : derives crule a m v -> optish cnn a = true -> m <> [] -> nonempty v = true.
Proof.
  destruct a; try discriminate; intros H _ Hm; inversion H; subst; try congruence; try reflexivity.
Qed.
Lemma somefield_full t m v : derives crule t m v -> somefield cnn t = true -> m <> [] -> existsb nonempty (fields_of v) = true.
Proof.
  induction 1; try discriminate; [congruence|]. cbn [somefield]. intros Hs Hm. apply andb_true_iff in Hs as [H1 H2].
  unfold vcons. cbn [fields_of existsb]. destruct m1 as [|t1 m1].
  - cbn in Hm. rewrite (IHderives2 H2 Hm). apply orb_true_r.
  - rewrite (optish_empty _ _ _ H H1) by discriminate. reflexivity.
Qed.
Lemma some_holds e m v : derives crule e m v -> some_node e = true -> holds PSomeField v = true <-> m <> [].
Proof.
  intros H Hs. split.
  - intros Hh. pose proof (nonnull_derives_all crule cnn cne cnd CST_D cst_ok _ _ _ H) as (_ & _ & Sf). apply Sf.
    + destruct e; try discriminate. exact Hs.
    + destruct v; cbn in *; try discriminate. exact Hh.
  - intros Hm. destruct e; try discriminate. inversion H; subst. cbn [holds]. eapply somefield_full; [eassumption|exact Hs|exact Hm].
Qed.

Lemma same_len_false a b : same_len a b = false -> List.length a <> List.length b.
Proof. intros H E. apply same_len_spec in E. congruence. Qed.

Lemma simp_agree n : forall e i, over i -> simp e <> XBad -> agree n e i.
Proof.
  induction n as [|n IH]; intros e i Hi Hb; [exact I|].
  unfold agree. rewrite grun_S.
  destruct e as [s| |nm|z| |e es|a b|e|k e|e|f g|p e|e p|e|nm e|c e|nm e]; cbn [gstep].
  - cbn [simp] in *. destruct i as [|t r].
    + destruct (Sg s); constructor.
    + destruct (sel_eqb (selmaho t) s) eqn:E.
      * apply sel_eqb_eq in E. inversion Hi; subst. rewrite H1. constructor. reflexivity.
      * apply sel_eqb_neq in E. destruct (Sg s); constructor. exact E.
  - destruct i; constructor. intros [].
  - destruct i; constructor. intros [].
  - cbn [simp] in *. pose proof (st_valid z) as V. pose proof (IH (crule z) i Hi) as A. unfold agree in A. fold (residual z) in A.
    destruct (st z) eqn:Ez.
    + rewrite V in A. apply A. discriminate.
    + rewrite V in A. apply A. discriminate.
    + specialize (A V). destruct (grun crule n (crule z) i); try exact A; apply x_call; rewrite (Htbl z Ez); assumption.
  - constructor.
  - cbn [simp] in *. pose proof (IH e i Hi (mk_seq_bad_l cf _ _ Hb)) as A. unfold agree in A. destruct (grun crule n e i) as [|r v|x|x] eqn:E; try exact A.
    + pose proof (IH es r (over_run _ _ _ _ _ Hi E) (mk_seq_bad tbl cf _ _ _ _ A Hb)) as B. unfold agree in B. destruct (grun crule n es r); try exact B; eapply mk_seq_ok; eassumption.
    + apply mk_seq_no; assumption.
    +  apply mk_seq_fa; assumption.
  - cbn [simp] in *. pose proof (IH a i Hi (mk_alt_bad_l _ _ Hb)) as A. unfold agree in A. destruct (grun crule n a i) as [|r v|x|x] eqn:E; try exact A.
    + apply mk_alt_l; assumption.
    + pose proof (IH b i Hi (mk_alt_bad_r tbl _ _ _ A Hb)) as B. unfold agree in B. destruct (grun crule n b i); try exact B; apply mk_alt_r; assumption.
    +  apply mk_alt_fa; assumption.
  - cbn [simp] in *. pose proof (IH e i Hi (mk_opt_bad _ Hb)) as A. unfold agree in A. destruct (grun crule n e i) as [|r v|x|x] eqn:E; try exact A.
    + apply mk_opt_ok; assumption.
    + apply mk_opt_no; assumption.
    +  apply mk_opt_fa; assumption.
  - cbn [simp] in *. pose proof (IH e i Hi (mk_loop_bad _ Hb)) as A. unfold agree in A. destruct (grun crule n e i) as [|r v|x|x] eqn:E; try exact A.
    + destruct (same_len r i) eqn:El.
      * eapply mk_loop_stuck; [exact A|apply same_len_spec, El].
      * pose proof (IH (GLoop k e) r (over_run _ _ _ _ _ Hi E) Hb) as B. unfold agree in B. cbn [simp] in B.
        destruct (grun crule n (GLoop k e) r); try exact B; eapply mk_loop_more; try eassumption; apply same_len_false, El.
    + apply mk_loop_end; assumption.
    +  apply mk_loop_fa; assumption.
  - cbn [simp] in *. pose proof (IH e i Hi (mk_seq_bad_l cf _ _ Hb)) as A. unfold agree in A. destruct (grun crule n e i) as [|r v|x|x] eqn:E; try exact A.
    + pose proof (IH (GLoop KMany1 e) r (over_run _ _ _ _ _ Hi E) (mk_seq_bad tbl cf _ _ _ _ A Hb)) as B. unfold agree in B. cbn [simp] in B.
      destruct (grun crule n (GLoop KMany1 e) r); try exact B; eapply mk_seq_ok; eassumption.
    + apply mk_seq_no; assumption.
    +  apply mk_seq_fa; assumption.
  - cbn [simp] in *. destruct (mk_till_eq _ _ Hb) as (Et & Bf & Bg). rewrite Et in *.
    pose proof (IH g i Hi Bg) as A. unfold agree in A. destruct (grun crule n g i) as [|r v|x|x] eqn:E; try exact A.
    + apply x_till_end; assumption.
    + pose proof (IH f i Hi Bf) as B. unfold agree in B. destruct (grun crule n f i) as [|r v|y|y] eqn:E2; try exact B.
      * destruct (same_len r i) eqn:El.
        -- eapply x_till_stuck; [exact A|exact B|apply same_len_spec, El].
        -- assert (C : agree n (GManyTill f g) r) by (apply IH; [exact (over_run _ _ _ _ _ Hi E2)|cbn [simp]; rewrite Et; exact Hb]).
           unfold agree in C. cbn [simp] in C. rewrite Et in C.
           destruct (grun crule n (GManyTill f g) r); try exact C; (eapply x_till_more; [exact A|exact B|apply same_len_false, El|assumption]).
      * apply x_till_no; assumption.
      *  apply x_till_fa2; assumption.
    +  apply x_till_fa; assumption.
  - cbn [simp] in *. pose proof (IH p i Hi (mk_nt_bad_l cf _ _ Hb)) as A. unfold agree in A. destruct (grun crule n p i) as [|r v|x|x] eqn:E; try exact A.
    + eapply mk_nt_hit; eassumption.
    + pose proof (IH e i Hi (mk_nt_bad tbl cf _ _ _ A Hb)) as B. unfold agree in B. destruct (grun crule n e i); try exact B; apply mk_nt_ok; assumption.
    +  apply mk_nt_fa; assumption.
  - cbn [simp] in *. pose proof (IH e i Hi (mk_na_bad_l cf _ _ Hb)) as A. unfold agree in A. destruct (grun crule n e i) as [|r v|x|x] eqn:E; try exact A.
    + pose proof (IH p r (over_run _ _ _ _ _ Hi E) (mk_na_bad tbl cf _ _ _ _ A Hb)) as B. unfold agree in B. destruct (grun crule n p r); try exact B.
      * eapply mk_na_hit; eassumption.
      * apply mk_na_ok; assumption.
      *  eapply mk_na_fa2; eassumption.
    + apply mk_na_no; assumption.
    +  apply mk_na_fa; assumption.
  - cbn [simp] in *. pose proof (IH e i Hi (mk_cut_bad _ Hb)) as A. unfold agree in A. destruct (grun crule n e i) as [|r v|x|x] eqn:E; try exact A.
    + apply mk_cut_ok; assumption.
    + apply mk_cut_er; assumption.
    + apply mk_cut_fa; assumption.
  - cbn [simp] in *. pose proof (IH e i Hi (mk_co_bad _ Hb)) as A. unfold agree in A. destruct (grun crule n e i) as [|r v|x|x] eqn:E; try exact A.
    + destruct (same_len r i) eqn:El.
      * eapply mk_co_stuck; [exact A|apply same_len_spec, El].
      * apply mk_co_ok; [exact A|apply same_len_false, El].
    + apply mk_co_no; assumption.
    +  apply mk_co_fa; assumption.
  - destruct c as [|l].
    + cbn [simp] in *. destruct (some_node e) eqn:Es; [|congruence]. pose proof (IH e i Hi (mk_co_bad _ Hb)) as A. unfold agree in A.
      destruct (grun crule n e i) as [|r v|x|x] eqn:E; try exact A.
      * pose proof (run_derives _ _ _ _ _ _ E) as (m & Em & D). pose proof (some_holds _ _ _ D Es) as H.
        destruct (holds PSomeField v).
        -- apply mk_co_ok; [exact A|]. destruct m; [destruct (proj1 H eq_refl eq_refl)|]. subst i. cbn. rewrite app_length. lia.
        -- eapply mk_co_stuck; [exact A|]. destruct m as [|t0 m]; [subst i; reflexivity|]. assert (false = true) by (apply H; discriminate). discriminate.
      * apply mk_co_no; assumption.
      *  apply mk_co_fa; assumption.
    + cbn [simp] in *. destruct e as [| | | | | | | | | | | | | | | |nm e]; try congruence. destruct e as [| | | | |e es| | | | | | | | | | |]; try congruence.
      destruct e; try congruence. destruct es; try congruence.
      destruct n as [|n]; [exact I|]. rewrite grun_S. cbn [gstep]. destruct n as [|n]; [exact I|]. rewrite grun_S. cbn [gstep]. destruct n as [|n]; [exact I|].
      rewrite !grun_S. cbn [gstep]. destruct i as [|t r]; [constructor|]. rewrite grun_S. cbn [gstep vcons fields_of holds].
      destruct (existsb (sel_eqb (selmaho t)) l) eqn:E; cbn [negb].
      * constructor. apply (mem_in l (selmaho t)), E.
      * constructor. apply (mem_notin l (selmaho t)), E.
  - cbn [simp] in *. pose proof (IH e i Hi Hb) as A. unfold agree in A. destruct (grun crule n e i); exact A.
Qed.

(** Acceptance, through the residual of the root rule. *)
Theorem accepted_residual root : simp al_Root = root -> root <> XBad -> forall i, over i -> (accepted i <-> X tbl root i (Ok [])).
Proof.
  intros Er Hb i Hi. pose proof (simp_agree (cst_fuel i) al_Root i Hi) as A. rewrite Er in A. specialize (A Hb). unfold agree in A. rewrite Er in A.
  pose proof (accepted_or_rejected i) as [H|H]; unfold accepted, rejected, cst_parse in *.
  - split; [intros _|intros _; exact H]. destruct H as (rt & H). destruct (grun crule (cst_fuel i) al_Root i) as [|[|t r] v|x|x]; try discriminate. exact A.
  - split.
    + intros (rt & H'). destruct (grun crule (cst_fuel i) al_Root i) as [|[|t r] v|x|x]; try discriminate. exact A.
    + intros HX. destruct H as (e & H). destruct (grun crule (cst_fuel i) al_Root i) as [|[|t r] v|x|x]; try discriminate.
      * pose proof (X_det _ _ _ _ A _ HX). discriminate.
      * pose proof (X_det _ _ _ _ A _ HX). discriminate.
      * pose proof (X_det _ _ _ _ A _ HX). discriminate.
Qed.
End Simp.

(** computing the statuses, and the rules without cuts *)
Definition st_of (tb : list (status * bool)) (x : cnt) : status := fst (nth (cnt_idx x) tb (SLive, false)).
Definition cf_of (tb : list (status * bool)) (x : cnt) : bool := snd (nth (cnt_idx x) tb (SLive, false)).
Definition st_step (Sg : Selmaho -> bool) (tb : list (status * bool)) : list (status * bool) :=
  map (fun x => let r := residual Sg (st_of tb) (cf_of tb) x in (match r with XFail => SFail | XNil => SNull | _ => SLive end, cutless (cf_of tb) r)) all_cnts.
Definition st_table (Sg : Selmaho -> bool) (k : nat) : list (status * bool) :=
  CstTotal.iter k (st_step Sg) (map (fun _ => (SFail, true)) all_cnts).
Definition rx_of (tb : list rx) (x : cnt) : rx := nth (cnt_idx x) tb XBad.
Definition rx_table (Sg : Selmaho -> bool) (tb : list (status * bool)) : list rx := map (residual Sg (st_of tb) (cf_of tb)) all_cnts.

Lemma rx_table_ok Sg tb x : rx_of (rx_table Sg tb) x = residual Sg (st_of tb) (cf_of tb) x.
Proof.
  unfold rx_of, rx_table. set (f := residual _ _ _). pose proof (all_cnts_nth x) as H. apply nth_error_nth with (d := G_Bu) in H.
  rewrite (nth_indep _ XBad (f G_Bu)).
  - rewrite map_nth, H. reflexivity.
  - rewrite map_length. apply nth_error_Some. rewrite all_cnts_nth. discriminate.
Qed.

(** one check for all that is needed *)
Definition table_ok (Sg : Selmaho -> bool) (tb : list (status * bool)) (rt : list rx) : bool :=
  st_ok Sg (st_of tb) (cf_of tb) && forallb (fun x => negb (cf_of tb x) || cutless (cf_of tb) (rx_of rt x)) all_cnts &&
  not_bad (simp Sg (st_of tb) (cf_of tb) al_Root).

Theorem table_accepts Sg tb rt root : rt = rx_table Sg tb -> table_ok Sg tb rt = true -> simp Sg (st_of tb) (cf_of tb) al_Root = root ->
  forall i, Forall (fun t => Sg (selmaho t) = true) i -> (accepted i <-> X (rx_of rt) root i (Ok [])) /\ exists r, X (rx_of rt) root i r.
Proof.
  intros -> Hok Hr i Hi. unfold table_ok in Hok. apply andb_true_iff in Hok as [Hok H3]. apply andb_true_iff in Hok as [H1 H2].
  assert (Hcf : forall x, cf_of tb x = true -> cutless (cf_of tb) (rx_of (rx_table Sg tb) x) = true).
  { intros x Hx. rewrite forallb_forall in H2. specialize (H2 x (all_cnts_complete x)). rewrite Hx in H2. exact H2. }
  assert (Ht : forall x, st_of tb x = SLive -> rx_of (rx_table Sg tb) x = residual Sg (st_of tb) (cf_of tb) x) by (intros; apply rx_table_ok).
  assert (Hb : root <> XBad) by (subst root; destruct (simp _ _ _ _); discriminate).
  split; [eapply accepted_residual; eauto|].
  pose proof (simp_agree Sg (st_of tb) (cf_of tb) _ Ht H1 Hcf (cst_fuel i) al_Root i Hi) as A. rewrite Hr in A. specialize (A Hb). unfold agree in A. rewrite Hr in A.
  destruct (cst_parse_run i) as (r & E). unfold cst_parse in E. destruct (grun crule (cst_fuel i) al_Root i); try discriminate E; eexists; exact A.
Qed.

(** what a run shows *)
Lemma table_run Sg tb rt e x n i r v : rt = rx_table Sg tb -> table_ok Sg tb rt = true -> simp Sg (st_of tb) (cf_of tb) e = x -> x <> XBad ->
  Forall (fun t => Sg (selmaho t) = true) i -> grun crule n e i = COk r v -> X (rx_of rt) x i (Ok r).
Proof.
  intros -> Hok Hr Hb Hi E. unfold table_ok in Hok. apply andb_true_iff in Hok as [Hok H3]. apply andb_true_iff in Hok as [H1 H2].
  assert (Hcf : forall x, cf_of tb x = true -> cutless (cf_of tb) (rx_of (rx_table Sg tb) x) = true).
  { intros y Hy. rewrite forallb_forall in H2. specialize (H2 y (all_cnts_complete y)). rewrite Hy in H2. exact H2. }
  assert (Ht : forall x, st_of tb x = SLive -> rx_of (rx_table Sg tb) x = residual Sg (st_of tb) (cf_of tb) x) by (intros; apply rx_table_ok).
  pose proof (simp_agree Sg (st_of tb) (cf_of tb) _ Ht H1 Hcf n e i Hi) as A. rewrite Hr in A. specialize (A Hb). unfold agree in A. rewrite Hr, E in A. exact A.
Qed.

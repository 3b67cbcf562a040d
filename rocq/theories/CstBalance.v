(** CstBalance.v -- a certified analysis of the grammar: with a weight for every
    selma'o, lower bounds for the weight of every prefix, every suffix and the
    whole of what a rule can consume, for token lists without the classes [Q].
    The tables are computed; [check] is verified by the kernel per instance. *)
From Verif Require Import Base Span Selmaho Lex Cst CstRules CstApi CstMeta CstTotal SpecCst CstTree.
From Coq Require Import ZArith Lia.

(** A lower bound; [None]: no bound. *)
Definition bound := option Z.
Definition bmin (a b : bound) : bound := match a, b with Some a, Some b => Some (Z.min a b) | _, _ => None end.
Definition badd (a b : bound) : bound := match a, b with Some a, Some b => Some (a + b)%Z | _, _ => None end.
Definition ble (a b : bound) : bool := match a, b with None, _ => true | Some a, Some b => (a <=? b)%Z | _, _ => false end.
Definition below (a : bound) (z : Z) : Prop := match a with None => True | Some a => (a <= z)%Z end.
(** widening, used only to make the table stabilise *)
Definition widen (a : bound) : bound := match a with Some a => if (a <? -8)%Z then None else Some a | None => None end.

Ltac bounds := repeat match goal with b : bound |- _ => destruct b | b : option Z |- _ => destruct b end;
  unfold below, bmin, badd, ble in *; cbn in *.

(** Result for an expression: it always consumes a [Q] token, or bounds for
    prefixes, suffixes, total. *)
Inductive ab := Vac | Good (p s d : bound).
Definition Bad : ab := Good None None None.

Section Balance.
Context (Q : Selmaho -> bool) (w : Selmaho -> Z).

Definition weigh (m : list token) : Z := fold_right (fun t a => (w (selmaho t) + a)%Z) 0%Z m.

Lemma weigh_app a b : weigh (a ++ b) = (weigh a + weigh b)%Z.
Proof. induction a as [|t a IH]; cbn [app weigh fold_right] in *; [reflexivity|]. fold (weigh (a ++ b)) (weigh a). rewrite IH. lia. Qed.

Definition no_Q (m : list token) : Prop := forall t, In t m -> Q (selmaho t) = false.

Definition acons (a b : ab) : ab :=
  match a, b with
  | Vac, _ | _, Vac => Vac
  | Good p1 s1 d1, Good p2 s2 d2 => Good (bmin p1 (badd d1 p2)) (bmin s2 (badd d2 s1)) (badd d1 d2)
  end.
Definition ajoin (a b : ab) : ab :=
  match a, b with
  | Vac, x | x, Vac => x
  | Good p1 s1 d1, Good p2 s2 d2 => Good (bmin p1 p2) (bmin s1 s2) (bmin d1 d2)
  end.
Definition zero : bound := Some 0%Z.
Definition anil : ab := Good zero zero zero.
Definition aloop (a : ab) : ab :=
  match a with
  | Vac => anil
  | Good p s d => if ble zero d then Good p s zero else Bad
  end.

Section Table.
Context (tbl : cnt -> ab).
Fixpoint abs (e : gexp cnt) : ab :=
  match e with
  | GTok s => if Q s then Vac else Good (Some (Z.min 0 (w s))) (Some (Z.min 0 (w s))) (Some (w s))
  | GAny | GSpan _ => Bad
  | GCall x => tbl x
  | GNil => anil
  | GCons a b => acons (abs a) (abs b)
  | GAlt a b => ajoin (abs a) (abs b)
  | GOpt a => ajoin (abs a) anil
  | GLoop _ a => aloop (abs a)
  | GMany1 a => acons (abs a) (aloop (abs a))
  | GManyTill f g => acons (aloop (abs f)) (abs g)
  | GNotThen _ a | GNotAfter a _ | GCut a | GConsume _ a | GPost _ a | GNode _ a => abs a
  end.
End Table.

Definition aleb (a b : ab) : bool :=
  match a, b with
  | Vac, _ => true
  | Good p s d, Good p' s' d' => ble p' p && ble s' s && ble d' d
  | _, _ => false
  end.

Definition means (a : ab) (m : list token) : Prop :=
  match a with
  | Vac => False
  | Good p s d => (forall x y, m = x ++ y -> below p (weigh x) /\ below s (weigh y)) /\ below d (weigh m)
  end.

Lemma bad_means m : means Bad m.
Proof. cbn. auto. Qed.

Lemma ble_below a b z : ble a b = true -> below b z -> below a z.
Proof. bounds; try discriminate; auto. rewrite Z.leb_le. lia. Qed.

Lemma aleb_means a b m : aleb a b = true -> means a m -> means b m.
Proof.
  destruct a as [|p s d], b as [|p' s' d']; cbn; try discriminate; try tauto.
  rewrite !andb_true_iff. intros [[H1 H2] H3] [H4 H5]. split; [|eapply ble_below; eauto].
  intros x y E. specialize (H4 x y E). split; eapply ble_below; try eassumption; apply H4.
Qed.

Lemma below_min_l a b z : below a z -> below (bmin a b) z.
Proof. bounds; auto. lia. Qed.
Lemma below_min_r a b z : below b z -> below (bmin a b) z.
Proof. bounds; auto. lia. Qed.
Lemma below_add a b y z : below a y -> below b z -> below (badd a b) (y + z).
Proof. bounds; auto. lia. Qed.

Lemma acons_means a b m1 m2 : means a m1 -> means b m2 -> means (acons a b) (m1 ++ m2).
Proof.
  destruct a as [|p s d], b as [|p' s' d']; cbn; try tauto.
  intros [H1 H2] [H3 H4]. split; [|rewrite weigh_app; apply below_add; assumption].
  intros x y E.
  destruct (app_eq_app _ _ _ _ E) as (u & [[E1 E2]|[E1 E2]]).
  - destruct (H1 x u E1) as [? ?]. subst y. rewrite weigh_app. split; [apply below_min_l; assumption|].
    apply below_min_r. rewrite Z.add_comm. apply below_add; assumption.
  - destruct (H3 u y E2) as [? ?]. subst x. rewrite weigh_app. split; [|apply below_min_l; assumption].
    apply below_min_r, below_add; assumption.
Qed.

Lemma ajoin_l a b m : means a m -> means (ajoin a b) m.
Proof.
  destruct a as [|p s d], b as [|p' s' d']; cbn; try tauto.
  intros [H1 H2]. split; [|apply below_min_l; assumption]. intros x y E. destruct (H1 x y E). split; apply below_min_l; assumption.
Qed.
Lemma ajoin_r a b m : means b m -> means (ajoin a b) m.
Proof.
  destruct a as [|p s d], b as [|p' s' d']; cbn; try tauto.
  intros [H1 H2]. split; [|apply below_min_r; assumption]. intros x y E. destruct (H1 x y E). split; apply below_min_r; assumption.
Qed.

Lemma anil_means : means anil [].
Proof. cbn. split; [|lia]. intros x y E. symmetry in E. apply app_eq_nil in E as [-> ->]. cbn. lia. Qed.

(** the bounds of a successful instance are at most 0 *)
Definition nonpos (a : ab) : Prop := match a with Good p s d => below p 0 /\ below s 0 | _ => True end.

Lemma means_nonpos a m : means a m -> nonpos a.
Proof.
  destruct a as [|p s d]; cbn; [auto|]. intros [H _]. destruct (H [] m eq_refl) as [H1 _]. destruct (H m []) as [_ H2]; [rewrite app_nil_r; reflexivity|].
  cbn in *. auto.
Qed.

Lemma acons_nonpos a b : nonpos a -> nonpos b -> nonpos (acons a b).
Proof. destruct a as [|p s d], b as [|p' s' d']; cbn; auto. intros [H1 H2] [H3 H4]. split; apply below_min_l; assumption. Qed.
Lemma ajoin_nonpos a b : nonpos a -> nonpos b -> nonpos (ajoin a b).
Proof. destruct a as [|p s d], b as [|p' s' d']; cbn; auto. intros [H1 H2] [H3 H4]. split; apply below_min_l; assumption. Qed.
Lemma anil_nonpos : nonpos anil.
Proof. cbn. lia. Qed.
Lemma aloop_nonpos a : nonpos a -> nonpos (aloop a).
Proof. destruct a as [|p s d]; cbn; [lia|]. intros [H1 H2]. destruct (match d with Some b => _ | None => false end); cbn; auto. Qed.

Lemma abs_nonpos tbl : (forall x, nonpos (tbl x)) -> forall e, nonpos (abs tbl e).
Proof.
  intros HT. induction e; cbn [abs]; try exact I; try assumption; try (apply HT);
    auto using acons_nonpos, ajoin_nonpos, aloop_nonpos, anil_nonpos.
  all: try (split; exact I). destruct (Q s); cbn; lia.
Qed.

Lemma aloop_nil a : nonpos a -> means (aloop a) [].
Proof.
  intros Hp. pose proof anil_means as H. destruct a as [|p s d]; cbn [aloop]; [exact H|].
  destruct (ble zero d); [|apply bad_means]. cbn in Hp |- *. split; [|lia].
  intros x y E. symmetry in E. apply app_eq_nil in E as [-> ->]. exact Hp.
Qed.

Lemma aloop_cons a m1 m2 : means a m1 -> means (aloop a) m2 -> means (aloop a) (m1 ++ m2).
Proof.
  intros H1 H2. destruct a as [|p s d]; [destruct H1|].
  cbn [aloop] in *. destruct (ble zero d) eqn:Ed; [|apply bad_means].
  pose proof (acons_means _ _ _ _ H1 H2) as H. cbn [acons] in H.
  eapply aleb_means; [|exact H]. pose proof (means_nonpos _ _ H1) as Hn. cbn in Hn. clear H H1 H2.
  unfold zero in *. unfold aleb. bounds; try discriminate; rewrite ?andb_true_iff, ?Z.leb_le in *; auto; lia.
Qed.

Section Sound.
Context (tbl : cnt -> ab).
Hypothesis HT : forall x, nonpos (tbl x).
Hypothesis HR : forall x, aleb (abs tbl (crule x)) (tbl x) = true.

Lemma no_Q_app a b : no_Q (a ++ b) -> no_Q a /\ no_Q b.
Proof. intros H. split; intros t Ht; apply H; apply in_or_app; auto. Qed.

Lemma abs_sound e m v : derives crule e m v -> no_Q m -> means (abs tbl e) m.
Proof.
  pose proof (abs_nonpos tbl HT) as NP.
  induction 1; intros HQ; cbn [abs]; try (apply no_Q_app in HQ as [HQ1 HQ2]); auto;
    try exact (bad_means _); try exact anil_means; try (apply acons_means; auto; fail); try (apply ajoin_l; auto; fail); try (apply ajoin_r; auto; fail).
  - assert (Hq : Q s = false) by (rewrite <- H; apply HQ; left; reflexivity). rewrite Hq. cbn. rewrite H. split; [|lia].
    intros x y E. destruct x as [|u x]; cbn in E.
    + subst y. cbn. rewrite H. lia.
    + injection E as <- E. symmetry in E. apply app_eq_nil in E as [-> ->]. cbn. rewrite H. lia.
  - eapply aleb_means; [apply HR|auto].
  - apply ajoin_r, anil_means.
  - apply aloop_nil, NP.
  - apply aloop_cons; auto.
  - pose proof (acons_means (aloop (abs tbl f)) (abs tbl g) [] m (aloop_nil _ (NP f)) (IHderives HQ)) as A. exact A.
  - specialize (IHderives1 HQ1). specialize (IHderives2 HQ2). cbn [abs] in IHderives2.
    pose proof (NP g) as Ng. pose proof (means_nonpos _ _ IHderives1) as Nf.
    destruct (abs tbl f) as [|p s d] eqn:Ef; [destruct IHderives1|].
    cbn [aloop] in *. destruct (ble zero d) eqn:Ed.
    + destruct (abs tbl g) as [|pg sg dg]; [destruct IHderives2|].
      pose proof (acons_means _ _ _ _ IHderives1 IHderives2) as A. eapply aleb_means; [|exact A].
      clear - Ed Nf Ng. unfold zero, nonpos, aleb, acons in *. bounds; try discriminate; rewrite ?andb_true_iff, ?Z.leb_le in *; auto; lia.
    + destruct (abs tbl g) as [|pg sg dg]; [destruct IHderives2|]. unfold Bad in *. cbn [acons] in *.
      destruct IHderives2 as [IH _]. bounds; auto; split; auto; intros x y E; split; auto; clear IHderives1;
      destruct (app_eq_app _ _ _ _ E) as (u & [[E1 E2]|[E1 E2]]); auto.
Qed.
End Sound.

Definition ab_step (tbl : list ab) : list ab := map (fun x => match abs (clook Vac tbl) (crule x) with Vac => Vac | Good p s d => Good (widen p) (widen s) (widen d) end) all_cnts.
Definition ab_table (k : nat) : list ab := CstTotal.iter k ab_step (map (fun _ => Vac) all_cnts).

Definition ab_nonpos (a : ab) : bool := match a with Good p s d => ble p zero && ble s zero | _ => true end.

(** [check t]: if the table is a certificate, the bounds of a text.  Tables are
    computed by [ab_table] once; only the check is part of proofs. *)
Definition check (t : list ab) : ab :=
  if forallb (fun x => ab_nonpos (clook Vac t x) && aleb (abs (clook Vac t) (crule x)) (clook Vac t x)) all_cnts
  then clook Vac t G_Text else Bad.
End Balance.

Lemma all_cnts_nth x : nth_error all_cnts (cnt_idx x) = Some x.
Proof. destruct x; reflexivity. Qed.
Lemma all_cnts_complete x : In x all_cnts.
Proof. eapply nth_error_In, all_cnts_nth. Qed.

Lemma check_sound Q w t m root : cst_parse m = Ret (inl root) -> no_Q Q m -> means w (check Q w t) m.
Proof.
  intros H HQ. apply cst_parse_derives in H. unfold check.
  destruct (forallb _ all_cnts) eqn:E; [|apply bad_means]. rewrite forallb_forall in E.
  apply (abs_sound Q w (clook Vac t)) with (e := GCall G_Text) (v := root); auto.
  - intros x. specialize (E x (all_cnts_complete x)). apply andb_true_iff in E as [E _].
    destruct (clook Vac t x) as [|p s d]; [exact I|]. unfold ab_nonpos, nonpos, zero in *. clear - E. bounds; rewrite ?andb_true_iff, ?Z.leb_le in *; auto; try discriminate; tauto.
  - intros x. specialize (E x (all_cnts_complete x)). apply andb_true_iff in E as [_ E]. exact E.
Qed.

(** CstNodes.v -- every node of a tree was made by a rule of that name, from
    consecutive tokens. *)
From Verif Require Import Base Span Selmaho Lex Cst CstRules CstApi CstMeta CstTotal SpecCst CstTree CstBalance.
From Coq Require Import Lia Arith.

(** values a value is made of *)
Inductive inside : val -> val -> Prop :=
| in_here v : inside v v
| in_field u x v l : (v = VPass l \/ exists n, v = VNode n l) -> In x l -> inside u x -> inside u v.

Lemma inside_trans a b c : inside a b -> inside b c -> inside a c.
Proof. intros H1 H2. induction H2; [exact H1|]. eapply in_field; eauto. Qed.

Lemma invoke_inside v u : In u (invoke_with_self v) -> inside u v.
Proof.
  induction v as [t|n s|n l _|l IH] using val_ind'; cbn [invoke_with_self]; intros H; try (destruct H as [<-|[]]; constructor).
  apply in_flat_map in H as (x & Hx & Hu). rewrite Forall_forall in IH. eapply in_field; [left; reflexivity|exact Hx|auto].
Qed.

Lemma children_inside v u : In u (children v) -> inside u v.
Proof.
  destruct v as [t|n s|n l|l]; cbn [children]; intros H; try destruct H;
    apply in_flat_map in H as (x & Hx & Hu); (eapply in_field; [|exact Hx|apply invoke_inside, Hu]); eauto.
Qed.

Lemma visits_inside v l : visits v l -> forall u, In u l -> inside u v.
Proof.
  revert v l. apply (visits_ind_strong (fun v l => forall u, In u l -> inside u v)).
  intros v ls _ F u [<-|Hu]; [constructor|].
  assert (K : forall c, In c (children v) -> inside c v) by apply children_inside.
  revert K Hu. induction F as [|c x cs ls Hc F IH]; intros K Hu; [destruct Hu|]. cbn [List.concat] in Hu.
  apply in_app_iff in Hu as [Hu|Hu].
  - eapply inside_trans; [apply Hc, Hu|apply K; left; reflexivity].
  - apply IH; [intros; apply K; right; assumption|exact Hu].
Qed.

Fixpoint nodes_in (e : gexp cnt) : list (string * gexp cnt) :=
  match e with
  | GTok _ | GAny | GSpan _ | GCall _ | GNil => []
  | GCons a b | GAlt a b | GManyTill a b | GNotThen a b | GNotAfter a b => nodes_in a ++ nodes_in b
  | GOpt a | GLoop _ a | GMany1 a | GConsume _ a | GPost _ a | GCut a => nodes_in a
  | GNode n a => (n, a) :: nodes_in a
  end.

Definition rule_nodes : list (string * gexp cnt) := flat_map (fun x => nodes_in (crule x)) all_cnts.

Definition made (N : list (string * gexp cnt)) (m : list token) (u : val) : Prop :=
  match u with
  | VNode n fs => exists p x q body w, m = p ++ x ++ q /\ In (n, body) N /\ derives crule body x w /\ fs = fields_of w
  | _ => True
  end.

Lemma made_mono N N' m p q u : (forall x, In x N -> In x N') -> made N m u -> made N' (p ++ m ++ q) u.
Proof.
  intros HN. destruct u; cbn; auto. intros (a & x & b & body & w & -> & H1 & H2 & H3).
  exists (p ++ a), x, (b ++ q), body, w. rewrite <- !app_assoc. auto.
Qed.

Lemma made_l N N' m q u : (forall x, In x N -> In x N') -> made N m u -> made N' (m ++ q) u.
Proof. intros H1 H2. exact (made_mono N N' m [] q u H1 H2). Qed.
Lemma made_r N N' m p u : (forall x, In x N -> In x N') -> made N m u -> made N' (p ++ m) u.
Proof. intros H1 H2. pose proof (made_mono N N' m p [] u H1 H2) as H. rewrite app_nil_r in H. exact H. Qed.
Lemma made_0 N N' m u : (forall x, In x N -> In x N') -> made N m u -> made N' m u.
Proof. intros H1 H2. pose proof (made_mono N N' m [] [] u H1 H2) as H. rewrite app_nil_r in H. exact H. Qed.

Lemma inside_pass u l : inside u (VPass l) -> u = VPass l \/ exists x, In x l /\ inside u x.
Proof.
  intros H. inversion H as [|? x ? l' [E|(n & E)] Hx Hu]; subst; auto; [|discriminate]. injection E as <-. eauto.
Qed.
Lemma inside_node u n l : inside u (VNode n l) -> u = VNode n l \/ exists x, In x l /\ inside u x.
Proof.
  intros H. inversion H as [|? x ? l' [E|(n' & E)] Hx Hu]; subst; auto; [discriminate|]. injection E as <- <-. eauto.
Qed.
Lemma inside_fields u x v : In x (fields_of v) -> inside u x -> inside u v.
Proof.
  destruct v; cbn [fields_of]; try (intros [<-|[]] H; exact H). intros H1 H2. eapply in_field; [left; reflexivity|exact H1|exact H2].
Qed.
Lemma inside_vcons u v w : inside u (vcons v w) -> (exists l, u = VPass l) \/ inside u v \/ inside u w.
Proof.
  intros H. apply inside_pass in H as [->|(x & [<-|Hx] & H)]; eauto. right. right. eapply inside_fields; eassumption.
Qed.

Ltac incl := intros z Hz; repeat rewrite in_app_iff in *; cbn [nodes_in In] in *; repeat rewrite in_app_iff in *; tauto.

Lemma derives_made e m v : derives crule e m v -> forall u, inside u v -> made (nodes_in e ++ rule_nodes) m u.
Proof.
  induction 1; intros u Hu.
  - inversion Hu as [|? ? ? ? [E|(? & E)]]; subst; try discriminate; exact I.
  - inversion Hu as [|? ? ? ? [E|(? & E)]]; subst; try discriminate; exact I.
  - inversion Hu as [|? ? ? ? [E|(? & E)]]; subst; try discriminate; exact I.
  - specialize (IHderives u Hu). eapply made_0; [|exact IHderives]. intros z Hz. cbn [nodes_in app]. apply in_app_iff in Hz as [Hz|Hz]; [|exact Hz].
    apply in_flat_map. exists x. split; [apply (all_cnts_complete x)|exact Hz].
  - apply inside_pass in Hu as [->|(x & [] & _)]. exact I.
  - apply inside_vcons in Hu as [(l & ->)|[Hu|Hu]]; [exact I| |].
    + eapply made_l; [|apply IHderives1, Hu]. incl.
    + eapply made_r; [|apply IHderives2, Hu]. incl.
  - eapply made_0; [|apply IHderives, Hu]. incl.
  - eapply made_0; [|apply IHderives, Hu]. incl.
  - apply inside_pass in Hu as [->|(x & [<-|[]] & Hu)]; [exact I|]. apply IHderives, Hu.
  - apply inside_pass in Hu as [->|(x & [] & _)]. exact I.
  - apply inside_pass in Hu as [->|(x & [] & _)]. exact I.
  - apply inside_vcons in Hu as [(l & ->)|[Hu|Hu]]; [exact I| |].
    + eapply made_l; [|apply IHderives1, Hu]. incl.
    + eapply made_r; [|apply IHderives2, Hu]. incl.
  - apply inside_vcons in Hu as [(l & ->)|[Hu|Hu]]; [exact I| |].
    + eapply made_l; [|apply IHderives1, Hu]. incl.
    + eapply made_r; [|apply IHderives2, Hu]. incl.
  - apply inside_pass in Hu as [->|(x & [<-|[<-|[]]] & Hu)]; [exact I| |].
    + apply inside_pass in Hu as [->|(x & [] & _)]. exact I.
    + eapply made_0; [|apply IHderives, Hu]. incl.
  - apply inside_pass in Hu as [->|(y & [<-|[<-|[]]] & Hu)]; [exact I| |].
    + apply inside_pass in Hu as [->|(y & [<-|Hy] & Hu)]; [exact I| |].
      * eapply made_l; [|apply IHderives1, Hu]. incl.
      * eapply made_r; [|apply IHderives2]; [incl|].
        eapply in_field; [left; reflexivity|left; reflexivity|]. eapply in_field; [left; reflexivity|exact Hy|exact Hu].
    + eapply made_r; [|apply IHderives2]; [incl|]. eapply in_field; [left; reflexivity|right; left; reflexivity|exact Hu].
  - eapply made_0; [|apply IHderives, Hu]. incl.
  - eapply made_0; [|apply IHderives, Hu]. incl.
  - eapply made_0; [|apply IHderives, Hu]. incl.
  - eapply made_0; [|apply IHderives, Hu]. incl.
  - eapply made_0; [|apply IHderives, Hu]. incl.
  - apply inside_node in Hu as [->|(x & Hx & Hu)].
    + exists [], m, [], e, v. rewrite app_nil_r. split; [reflexivity|]. split; [left; reflexivity|]. auto.
    + eapply made_0; [|apply IHderives; eapply inside_fields; eassumption]. incl.
Qed.

(** Every node visited in a tree was made by a rule. *)
Lemma node_made toks root l name fs : cst_parse toks = Ret (inl root) -> visits root l -> In (VNode name fs) l ->
  exists p m q body w, toks = p ++ m ++ q /\ In (name, body) rule_nodes /\ derives crule body m w /\ fs = fields_of w.
Proof.
  intros H Hv Hin. apply cst_parse_derives in H. exact (derives_made _ _ _ H _ (visits_inside _ _ Hv _ Hin)).
Qed.

(** * zoi quotes *)

Definition zoi_body : gexp cnt :=
  gtuple [tok_raw "Zoi" S_Zoi; GCall G_ZoiDelimiter; GCall G_ZoiText; GCall G_ZoiDelimiter].

Lemma zoi_nodes : filter (fun p => String.eqb (fst p) "ZoiSumti") rule_nodes = [("ZoiSumti"%string, zoi_body)].
Proof. vm_compute. reflexivity. Qed.

Ltac invd := match goal with
  | H : derives _ (GCons _ _) _ _ |- _ => inversion H; subst; clear H
  | H : derives _ GNil _ _ |- _ => inversion H; subst; clear H
  | H : derives _ (GTok _) _ _ |- _ => inversion H; subst; clear H
  | H : derives _ GAny _ _ |- _ => inversion H; subst; clear H
  | H : derives _ (GSpan _) _ _ |- _ => inversion H; subst; clear H
  | H : derives _ (GNotAfter _ _) _ _ |- _ => inversion H; subst; clear H
  | H : derives _ (GCall G_ZoiDelimiter) _ _ |- _ => inversion H; subst; clear H
  | H : derives _ (GCall G_ZoiText) _ _ |- _ => inversion H; subst; clear H
  | H : derives _ (crule G_ZoiDelimiter) _ _ |- _ => cbn [crule] in H
  | H : derives _ (crule G_ZoiText) _ _ |- _ => cbn [crule] in H
  end.

Lemma zoi_node toks root l fs : cst_parse toks = Ret (inl root) -> visits root l -> In (VNode "ZoiSumti" fs) l ->
  exists p q z d1 t d2, toks = p ++ z :: d1 :: t :: d2 :: q /\ selmaho z = S_Zoi /\
    fs = [VTok z; VSpan "ZoiDelimiter" (tspan d1); VSpan "ZoiText" (tspan t); VSpan "ZoiDelimiter" (tspan d2)].
Proof.
  intros H Hv Hin. destruct (node_made _ _ _ _ _ H Hv Hin) as (p & m & q & body & w & -> & Hb & Hd & ->).
  assert (E : body = zoi_body).
  { assert (K : In ("ZoiSumti"%string, body) (filter (fun p => String.eqb (fst p) "ZoiSumti") rule_nodes)) by (apply filter_In; auto).
    rewrite zoi_nodes in K. destruct K as [K|[]]. congruence. }
  subst body. unfold zoi_body, gtuple, tok_raw in Hd. cbn [fold_right] in Hd. repeat invd. cbn [app].
  exists p, q. do 4 eexists. split; [reflexivity|]. split; [assumption|reflexivity].
Qed.

(** * Flags *)

Section Rel.
Context (R : val -> token -> Prop).
Definition coversR (v : val) (m : list token) : Prop := Forall2 R (leaves v) m.

Lemma coversR_children v m : coversR v m -> match v with VTok _ | VSpan _ _ => exists t, m = [t] /\ R v t
  | _ => exists ms, Forall2 coversR (children v) ms /\ m = List.concat ms end.
Proof.
  assert (HL : forall cs m, Forall2 R (flat_map leaves cs) m -> exists ms, Forall2 coversR cs ms /\ m = List.concat ms).
  { induction cs as [|c cs IH]; intros m0 H; cbn [flat_map] in H.
    - inversion H; subst. exists []. split; [constructor|reflexivity].
    - apply Forall2_app_inv_l in H as (m1 & m2 & H1 & H2 & ->). apply IH in H2 as (ms & F & ->).
      exists (m1 :: ms). split; [constructor; assumption|reflexivity]. }
  intros H. pose proof (leaves_children v) as Hl. unfold coversR in H.
  destruct v as [t|n s|n l|l].
  - cbn [leaves] in H. inversion H as [|? t0 ? ? Hs H0]; subst. inversion H0; subst. eauto.
  - cbn [leaves] in H. inversion H as [|? t0 ? ? Hs H0]; subst. inversion H0; subst. eauto.
  - rewrite Hl in H. apply HL. exact H.
  - rewrite Hl in H. apply HL. exact H.
Qed.

Lemma visits_coversR v l : visits v l -> forall m, coversR v m ->
  Forall (fun c => exists p x q, m = p ++ x ++ q /\ coversR c x) l.
Proof.
  revert v l. apply (visits_ind_strong (fun v l => forall m, coversR v m -> Forall (fun c => exists p x q, m = p ++ x ++ q /\ coversR c x) l)).
  intros v ls _ F m H. constructor.
  { exists [], m, []. rewrite app_nil_r. split; [reflexivity|exact H]. }
  apply coversR_children in H as H'.
  destruct v as [t|nm s|nm fs|fs]; [cbn [children] in F; inversion F; constructor|cbn [children] in F; inversion F; constructor| |];
    destruct H' as (ms & Fc & ->); clear H; revert ms Fc;
    induction F as [|c x cs ls Hc F IH]; intros ms Fc; inversion Fc as [|? m1 ? ms' Hm1 Fc']; subst; cbn [List.concat]; try constructor;
    (apply Forall_app; split;
     [eapply Forall_impl; [|exact (Hc m1 Hm1)]; intros a (p & y & q & -> & Hy); exists p, y, (q ++ List.concat ms'); rewrite <- !app_assoc; auto
     |eapply Forall_impl; [|exact (IH ms' Fc')]; intros a (p & y & q & -> & Hy); exists (m1 ++ p), y, q; rewrite <- !app_assoc; auto]).
Qed.
End Rel.

(** the leaf keeps the flag of its token *)
Definition keeps (v : val) (t : token) : Prop :=
  v = VTok t \/ exists name, In name ["ZoiDelimiter"; "ZoiText"]%string /\ v = VSpan name (tspan t) /\ experimental t = false.

Lemma keeps_covers v m : coversR keeps v m -> covers v m.
Proof.
  unfold coversR, covers. induction 1 as [|x t l l' Hx F IH]; constructor; [|exact IH].
  destruct Hx as [Hx|(n & Hn & Hx & _)]; [left; exact Hx|right; eauto].
Qed.

Lemma keeps_flag v : forall m, coversR keeps v m -> node_experimental v = existsb experimental m.
Proof.
  assert (HL : forall l, Forall (fun v => forall m, coversR keeps v m -> node_experimental v = existsb experimental m) l ->
    forall m, Forall2 keeps (flat_map leaves l) m -> existsb node_experimental l = existsb experimental m).
  { induction 1 as [|x l Hx Hl IH]; intros m H; cbn [flat_map existsb] in *; [inversion H; reflexivity|].
    apply Forall2_app_inv_l in H as (m1 & m2 & H1 & H2 & ->). rewrite existsb_app, (Hx m1 H1), (IH m2 H2). reflexivity. }
  induction v as [t|n s|n l IH|l IH] using val_ind'; intros m H; unfold coversR in H; cbn [leaves node_experimental] in *.
  - inversion H as [|? t0 ? ? Hs H0]; subst. inversion H0; subst. destruct Hs as [[= <-]|(? & _ & [=] & _)]. cbn. rewrite orb_false_r. reflexivity.
  - inversion H as [|? t0 ? ? Hs H0]; subst. inversion H0; subst. destruct Hs as [[=]|(? & _ & _ & E)]. cbn. rewrite E. reflexivity.
  - apply HL; assumption.
  - apply HL; assumption.
Qed.

Lemma quotes_plain_app a b : quotes_plain (a ++ b) -> quotes_plain a /\ quotes_plain b.
Proof.
  intros H. split; intros p z d1 t d2 q E Hz.
  - apply (H p z d1 t d2 (q ++ b)); [|exact Hz]. rewrite E, <- app_assoc. reflexivity.
  - apply (H (a ++ p) z d1 t d2 q); [|exact Hz]. rewrite E, <- app_assoc. reflexivity.
Qed.

Definition zoi_part (x : cnt) : bool := match x with G_ZoiDelimiter | G_ZoiText => true | _ => false end.
Fixpoint spanfree (e : gexp cnt) : bool :=
  match e with
  | GTok _ | GAny | GNil => true
  | GSpan _ => false
  | GCall x => negb (zoi_part x)
  | GCons a b | GAlt a b | GManyTill a b => spanfree a && spanfree b
  | GNotThen _ a | GNotAfter a _ => spanfree a
  | GOpt a | GLoop _ a | GMany1 a | GConsume _ a | GPost _ a | GNode _ a | GCut a => spanfree a
  end.

Lemma spanfree_rules x : zoi_part x || match x with G_ZoiSumti => true | _ => spanfree (crule x) end = true.
Proof. destruct x; vm_compute; reflexivity. Qed.

Lemma coversR_fields R v m : Forall2 R (flat_map leaves (fields_of v)) m <-> coversR R v m.
Proof. unfold coversR. rewrite leaves_fields. reflexivity. Qed.

Lemma derives_keeps e m v : derives crule e m v -> quotes_plain m -> spanfree e = true -> coversR keeps v m.
Proof.
  induction 1; intros Q S; cbn [spanfree] in S; try (apply quotes_plain_app in Q as [Q1 Q2]); try discriminate; auto;
    try (apply andb_true_iff in S as [S1 S2]); auto.
  - constructor; [left; reflexivity|constructor].
  - constructor; [left; reflexivity|constructor].
  - pose proof (spanfree_rules x) as P. apply negb_true_iff in S. rewrite S in P. cbn [orb] in P.
    assert (D : x = G_ZoiSumti \/ spanfree (crule x) = true) by (destruct x; auto). destruct D as [->|D]; [|auto].
    change (crule G_ZoiSumti) with (GNode "ZoiSumti" zoi_body) in H. inversion H as [| | | | | | | | | | | | | | | | | | | |? ? ? w Hd]; subst.
    unfold zoi_body, gtuple, tok_raw in Hd. cbn [fold_right] in Hd. repeat invd. cbn [app] in *.
    match goal with Hz : selmaho _ = S_Zoi |- _ => destruct (Q [] _ _ _ _ [] eq_refl Hz) as (P1 & P2 & P3) end.
    unfold coversR. cbn [vcons fields_of leaves flat_map app]. constructor; [left; reflexivity|].
    repeat (constructor; [right; eexists; split; [|split; [reflexivity|assumption]]; cbn; tauto|]). constructor.
  - constructor.
  - unfold coversR. rewrite leaves_vcons. apply Forall2_app; auto; [apply IHderives1|apply IHderives2]; assumption.
  - unfold coversR. cbn [leaves flat_map]. rewrite app_nil_r. apply IHderives; assumption.
  - constructor.
  - constructor.
  - unfold coversR. rewrite leaves_vcons. apply Forall2_app; auto; [apply IHderives1|apply IHderives2]; assumption.
  - unfold coversR. rewrite leaves_vcons. apply Forall2_app; auto; [apply IHderives1|apply IHderives2]; assumption.
  - unfold coversR. cbn [leaves flat_map app]. rewrite app_nil_r. apply IHderives; assumption.
  - assert (IH2 : coversR keeps (VPass [VPass l; x]) m2) by (apply IHderives2; [assumption|cbn [spanfree]; rewrite S1, S2; reflexivity]).
    unfold coversR in *. cbn [leaves flat_map] in *. rewrite <- !app_assoc. apply Forall2_app; [apply IHderives1; assumption|exact IH2].
  - unfold coversR. cbn [leaves]. apply coversR_fields. auto.
Qed.

Lemma root_keeps toks root : cst_parse toks = Ret (inl root) -> quotes_plain toks -> coversR keeps root toks.
Proof. intros H N. apply cst_parse_derives in H. eapply derives_keeps; [exact H|exact N|reflexivity]. Qed.

(** walking, as a function *)
Fixpoint walk (n : nat) (v : val) : list val :=
  match n with O => [] | S n => v :: List.concat (map (walk n) (children v)) end.

Lemma walk_visits n : forall v, (size v <= n)%nat -> visits v (walk n v).
Proof.
  induction n as [|n IH]; intros v Hv; [pose proof (size_pos v); lia|]. cbn [walk]. constructor.
  assert (Hc : forall c, In c (children v) -> (size c < size v)%nat) by apply child_size.
  induction (children v) as [|c cs IHc]; constructor.
  - apply IH. specialize (Hc c (or_introl eq_refl)). lia.
  - apply IHc. intros. apply Hc. right. assumption.
Qed.

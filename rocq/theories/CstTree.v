(** CstTree.v -- trees: what [derives] says about leaves, locations, flags and
    traversal. *)
From Verif Require Import Base Span Selmaho Lex Cst CstRules CstApi CstMeta CstTotal SpecCst.
From Coq Require Import Lia Arith.

(** * Termination of [cst_parse] *)

Lemma cst_parse_run toks : exists r, cst_parse toks = Ret r.
Proof.
  unfold cst_parse, cst_fuel.
  pose proof (grun_total crule cnn cne cnd CST_D cst_ok (CST_D * S (List.length toks)) al_Root toks) as H.
  destruct (grun crule _ al_Root toks) as [|[|t r] v|x|x] eqn:E; eauto. exfalso. apply H; [|clear|reflexivity].
  - vm_compute. reflexivity.
  - rewrite Nat.mul_succ_r. apply Nat.add_le_mono_l. apply Nat.leb_le. vm_compute. reflexivity.
Qed.

Lemma cst_parse_derives toks root : cst_parse toks = Ret (inl root) -> derives crule (GCall G_Text) toks root.
Proof.
  unfold cst_parse. destruct (grun crule _ al_Root toks) as [|[|t r] v|x|x] eqn:E; try discriminate.
  intros [= <-]. apply run_derives in E as (m & -> & H). rewrite app_nil_r. exact H.
Qed.

(** * Leaves *)

Section ValInd.
Context (P : val -> Prop) (Ht : forall t, P (VTok t)) (Hs : forall n s, P (VSpan n s))
  (Hn : forall n l, Forall P l -> P (VNode n l)) (Hp : forall l, Forall P l -> P (VPass l)).
Fixpoint val_ind' (v : val) : P v :=
  match v with
  | VTok t => Ht t
  | VSpan n s => Hs n s
  | VNode n l => Hn n l ((fix go l := match l return Forall P l with [] => Forall_nil P | x :: r => Forall_cons x (val_ind' x) (go r) end) l)
  | VPass l => Hp l ((fix go l := match l return Forall P l with [] => Forall_nil P | x :: r => Forall_cons x (val_ind' x) (go r) end) l)
  end.
End ValInd.

(** [covers v m]: the leaves of [v] are, in order, the tokens [m] *)
Fixpoint leaves (v : val) : list val :=
  match v with
  | VTok _ | VSpan _ _ => [v]
  | VNode _ l | VPass l => flat_map leaves l
  end.

Definition covers (v : val) (m : list token) : Prop := Forall2 shows (leaves v) m.

Lemma leaves_fields v : flat_map leaves (fields_of v) = leaves v.
Proof. destruct v; cbn; rewrite ?app_nil_r; reflexivity. Qed.

Lemma leaves_vcons v w : leaves (vcons v w) = leaves v ++ leaves w.
Proof. unfold vcons. cbn. rewrite leaves_fields. reflexivity. Qed.

Fixpoint span_names (e : gexp cnt) : bool :=
  match e with
  | GTok _ | GAny | GCall _ | GNil => true
  | GSpan nm => (String.eqb nm "ZoiDelimiter" || String.eqb nm "ZoiText")%string
  | GCons a b | GAlt a b | GManyTill a b | GNotThen a b | GNotAfter a b => span_names a && span_names b
  | GOpt a | GLoop _ a | GMany1 a | GConsume _ a | GPost _ a | GNode _ a | GCut a => span_names a
  end.

Lemma span_names_rules x : span_names (crule x) = true.
Proof. destruct x; vm_compute; reflexivity. Qed.

Lemma derives_covers e m v : derives crule e m v -> span_names e = true -> covers v m.
Proof.
  unfold covers. induction 1; cbn [span_names]; intros Hs;
    repeat match goal with H : _ && _ = true |- _ => apply andb_true_iff in H as [? ?] end;
    rewrite ?leaves_vcons; cbn [leaves flat_map] in *; rewrite ?leaves_fields, ?app_nil_r in *;
    auto using Forall2_app, Forall2_nil, Forall2_cons.
  - repeat constructor.
  - repeat constructor.
  - constructor; [|constructor]. right. exists nm. split; [|reflexivity].
    apply orb_true_iff in Hs as [Hs|Hs]; apply String.eqb_eq in Hs; subst; cbn; tauto.
  - apply IHderives, span_names_rules.
  - rewrite <- app_assoc. apply Forall2_app; [auto|]. apply IHderives2. apply andb_true_iff. split; assumption.
Qed.

Lemma root_covers toks root : cst_parse toks = Ret (inl root) -> covers root toks.
Proof. intros H. apply cst_parse_derives in H. eapply derives_covers; [exact H|reflexivity]. Qed.

(** * Locations *)

Lemma last_end_cons x m : last_end (x :: m) <> None.
Proof. revert x. induction m as [|y m IH]; intros x; [discriminate|apply IH]. Qed.

Lemma last_end_app a b : last_end (a ++ b) = or_else (last_end b) (last_end a).
Proof.
  destruct b as [|y b]; [rewrite app_nil_r; reflexivity|].
  assert (H : last_end (a ++ y :: b) = last_end (y :: b)).
  { induction a as [|x a IH]; [reflexivity|]. rewrite <- IH. cbn [app].
    destruct (a ++ y :: b) as [|z c] eqn:E; [destruct a; discriminate|]. reflexivity. }
  rewrite H. pose proof (last_end_cons y b). destruct (last_end (y :: b)); [reflexivity|congruence].
Qed.

Lemma first_start_app a b : first_start (a ++ b) = or_else (first_start a) (first_start b).
Proof. destruct a; reflexivity. Qed.

Lemma shows_start v t : shows v t -> start_location v = Some (sp_start (tspan t)) /\ end_location v = Some (sp_end (tspan t)) /\ children v = [] /\ leaves v = [v].
Proof. intros [->|(nm & _ & ->)]; repeat split. Qed.

Definition loc_ok (v : val) : Prop := forall m, covers v m -> start_location v = first_start m /\ end_location v = last_end m.

Fixpoint last_map (l : list val) : option N :=
  match l with [] => None | x :: l' => or_else (last_map l') (end_location x) end.

Lemma end_location_node nm l : end_location (VNode nm l) = last_map l.
Proof. induction l as [|x l IH]; [reflexivity|]. cbn [last_map]. rewrite <- IH. reflexivity. Qed.

Lemma end_location_pass l : end_location (VPass l) = last_map l.
Proof. induction l as [|x l IH]; [reflexivity|]. cbn [last_map]. rewrite <- IH. reflexivity. Qed.

Lemma list_loc l : Forall loc_ok l -> forall m, Forall2 shows (flat_map leaves l) m ->
  find_map start_location l = first_start m /\ last_map l = last_end m.
Proof.
  induction 1 as [|x l Hx Hl IH]; intros m H; cbn [flat_map find_map last_map] in *.
  - inversion H; subst. split; reflexivity.
  - apply Forall2_app_inv_l in H as (m1 & m2 & H1 & H2 & ->).
    apply Hx in H1 as [-> ->]. apply IH in H2 as [-> ->]. rewrite first_start_app, last_end_app. split; reflexivity.
Qed.

Lemma covers_loc v : loc_ok v.
Proof.
  induction v as [t|n s|n l IH|l IH] using val_ind'; intros m H; unfold covers in H; cbn [leaves] in H.
  - inversion H as [|? t0 ? ? Hs H0]; subst. inversion H0; subst. apply shows_start in Hs as (-> & -> & _). split; reflexivity.
  - inversion H as [|? t0 ? ? Hs H0]; subst. inversion H0; subst. apply shows_start in Hs as (-> & -> & _). split; reflexivity.
  - rewrite end_location_node. apply list_loc; assumption.
  - rewrite end_location_pass. apply list_loc; assumption.
Qed.

(** * Experimental *)

Lemma covers_experimental_le v : forall m, covers v m -> node_experimental v = true -> existsb experimental m = true.
Proof.
  assert (HL : forall l, Forall (fun v => forall m, covers v m -> node_experimental v = true -> existsb experimental m = true) l ->
    forall m, Forall2 shows (flat_map leaves l) m -> existsb node_experimental l = true -> existsb experimental m = true).
  { induction 1 as [|x l Hx Hl IH]; intros m H E; cbn [flat_map existsb] in *; [discriminate|].
    apply Forall2_app_inv_l in H as (m1 & m2 & H1 & H2 & ->). rewrite existsb_app.
    apply orb_true_iff in E as [E|E]; [rewrite (Hx m1 H1 E)|rewrite (IH m2 H2 E), orb_true_r]; reflexivity. }
  induction v as [t|n s|n l IH|l IH] using val_ind'; intros m H; unfold covers in H; cbn [leaves node_experimental] in *.
  - inversion H as [|? t0 ? ? Hs H0]; subst. inversion H0; subst. destruct Hs as [[= <-]|(? & _ & [=])]. cbn. intros ->. reflexivity.
  - discriminate.
  - apply HL; assumption.
  - apply HL; assumption.
Qed.

Fixpoint no_spans (v : val) : bool :=
  match v with VTok _ => true | VSpan _ _ => false | VNode _ l | VPass l => forallb no_spans l end.

Lemma covers_experimental v : forall m, covers v m -> no_spans v = true -> node_experimental v = existsb experimental m.
Proof.
  assert (HL : forall l, Forall (fun v => forall m, covers v m -> no_spans v = true -> node_experimental v = existsb experimental m) l ->
    forall m, Forall2 shows (flat_map leaves l) m -> forallb no_spans l = true -> existsb node_experimental l = existsb experimental m).
  { induction 1 as [|x l Hx Hl IH]; intros m H E; cbn [flat_map existsb forallb] in *; [inversion H; reflexivity|].
    apply Forall2_app_inv_l in H as (m1 & m2 & H1 & H2 & ->). rewrite existsb_app.
    apply andb_true_iff in E as [E1 E2]. rewrite (Hx m1 H1 E1), (IH m2 H2 E2). reflexivity. }
  induction v as [t|n s|n l IH|l IH] using val_ind'; intros m H; unfold covers in H; cbn [leaves node_experimental no_spans] in *.
  - inversion H as [|? t0 ? ? Hs H0]; subst. inversion H0; subst. destruct Hs as [[= <-]|(? & _ & [=])]. cbn. rewrite orb_false_r. reflexivity.
  - discriminate.
  - apply HL; assumption.
  - apply HL; assumption.
Qed.

(** * Traversal *)

Lemma leaves_invoke v : flat_map leaves (invoke_with_self v) = leaves v.
Proof.
  induction v as [t|n s|n l IH|l IH] using val_ind'; try (cbn; rewrite ?app_nil_r; reflexivity).
  cbn [invoke_with_self leaves]. induction IH as [|x l Hx Hl IHl]; [reflexivity|].
  cbn [flat_map]. rewrite flat_map_app, Hx, IHl. reflexivity.
Qed.

Lemma leaves_children v : match v with VTok _ | VSpan _ _ => children v = [] /\ leaves v = [v] | _ => leaves v = flat_map leaves (children v) end.
Proof.
  destruct v as [t|n s|n l|l]; try (split; reflexivity); cbn [children leaves];
    induction l as [|x l IH]; try reflexivity; cbn [flat_map]; rewrite flat_map_app, leaves_invoke, IH; reflexivity.
Qed.

Fixpoint size (v : val) : nat :=
  match v with
  | VTok _ | VSpan _ _ => 1
  | VNode _ l | VPass l => S ((fix go l := match l with [] => 0 | x :: r => size x + go r end) l)
  end%nat.

Fixpoint sizes (l : list val) : nat := match l with [] => 0 | x :: r => size x + sizes r end%nat.

Lemma size_node n l : size (VNode n l) = S (sizes l).
Proof. cbn. f_equal. Qed.
Lemma size_pass l : size (VPass l) = S (sizes l).
Proof. cbn. f_equal. Qed.

Lemma sizes_app a b : sizes (a ++ b) = (sizes a + sizes b)%nat.
Proof. induction a as [|x a IH]; cbn [app sizes]; lia. Qed.

Lemma invoke_size v : (sizes (invoke_with_self v) <= size v)%nat.
Proof.
  induction v as [t|n s|n l IH|l IH] using val_ind'; try (cbn; lia).
  rewrite size_pass. cbn [invoke_with_self]. enough (sizes (flat_map invoke_with_self l) <= sizes l)%nat by lia.
  induction IH as [|x l Hx Hl IHl]; [cbn; lia|]. cbn [flat_map sizes]. rewrite sizes_app. lia.
Qed.

Lemma children_sizes v : (sizes (children v) < size v)%nat.
Proof.
  assert (HL : forall l, (sizes (flat_map invoke_with_self l) <= sizes l)%nat).
  { induction l as [|x l IH]; [cbn; lia|]. cbn [flat_map sizes]. rewrite sizes_app. pose proof (invoke_size x). lia. }
  destruct v; rewrite ?size_node, ?size_pass; cbn [children]; try (cbn; lia); pose proof (HL fields); lia.
Qed.

Lemma size_pos v : (1 <= size v)%nat.
Proof. destruct v; cbn; lia. Qed.

Lemma in_sizes x l : In x l -> (size x <= sizes l)%nat.
Proof. induction l as [|y l IH]; [intros []|]. cbn [sizes]. intros [->|H]; [lia|apply IH in H; lia]. Qed.

Lemma child_size v c : In c (children v) -> (size c < size v)%nat.
Proof. intros H. apply in_sizes in H. pose proof (children_sizes v). lia. Qed.

Lemma visits_exists v : exists l, visits v l.
Proof.
  remember (size v) as n eqn:E. revert v E. induction n as [n IH] using lt_wf_ind. intros v ->.
  assert (H : exists ls, Forall2 visits (children v) ls).
  { assert (Hc : forall c, In c (children v) -> exists l, visits c l).
    { intros c Hc. eapply IH; [|reflexivity]. apply child_size. exact Hc. }
    induction (children v) as [|c cs IHc]; [exists []; constructor|].
    destruct (Hc c (or_introl eq_refl)) as (l & Hl). destruct IHc as (ls & Hls); [intros; apply Hc; right; assumption|].
    exists (l :: ls). constructor; assumption. }
  destruct H as (ls & H). exists (v :: List.concat ls). constructor. exact H.
Qed.

(** Everything about a visited node. *)
Lemma visits_ind_strong (P : val -> list val -> Prop) :
  (forall v ls, Forall2 visits (children v) ls -> Forall2 P (children v) ls -> P v (v :: List.concat ls)) ->
  forall v l, visits v l -> P v l.
Proof.
  intros HP v. remember (size v) as n eqn:E. revert v E. induction n as [n IH] using lt_wf_ind. intros v -> l H.
  inversion H as [? ls F]; subst. apply HP; [exact F|].
  assert (Hc : forall c, In c (children v) -> (size c < size v)%nat) by (apply child_size).
  revert Hc. clear H. induction F as [|c l0 cs ls0 H F IHF]; intros Hc; constructor.
  - eapply IH; [apply Hc; left; reflexivity|reflexivity|exact H].
  - apply IHF. intros. apply Hc. right. assumption.
Qed.

Lemma visits_det v l : visits v l -> forall l', visits v l' -> l = l'.
Proof.
  revert l. apply (visits_ind_strong (fun v l => forall l', visits v l' -> l = l')).
  intros u ls _ F l' H. inversion H as [? ls' F']; subst. f_equal. f_equal.
  clear H. revert ls' F'. induction F as [|c x cs ls Hc F IH]; intros ls' F'; inversion F'; subst; [reflexivity|].
  f_equal; auto.
Qed.

(** [covers] is inherited by children, in consecutive parts *)
Lemma covers_children v m : covers v m -> match v with VTok _ | VSpan _ _ => exists t, m = [t] /\ shows v t
  | _ => exists ms, Forall2 covers (children v) ms /\ m = List.concat ms end.
Proof.
  assert (HL : forall cs m, Forall2 shows (flat_map leaves cs) m -> exists ms, Forall2 covers cs ms /\ m = List.concat ms).
  { induction cs as [|c cs IH]; intros m0 H; cbn [flat_map] in H.
    - inversion H; subst. exists []. split; [constructor|reflexivity].
    - apply Forall2_app_inv_l in H as (m1 & m2 & H1 & H2 & ->). apply IH in H2 as (ms & F & ->).
      exists (m1 :: ms). split; [constructor; assumption|reflexivity]. }
  intros H. pose proof (leaves_children v) as Hl. unfold covers in H.
  destruct v as [t|n s|n l|l].
  - cbn [leaves] in H. inversion H as [|? t0 ? ? Hs H0]; subst. inversion H0; subst. eauto.
  - cbn [leaves] in H. inversion H as [|? t0 ? ? Hs H0]; subst. inversion H0; subst. eauto.
  - rewrite Hl in H. apply HL. exact H.
  - rewrite Hl in H. apply HL. exact H.
Qed.

Lemma not_shows_node n l t : ~ shows (VNode n l) t.
Proof. intros [H|(? & _ & H)]; discriminate. Qed.
Lemma not_shows_pass l t : ~ shows (VPass l) t.
Proof. intros [H|(? & _ & H)]; discriminate. Qed.

Lemma Forall2_in_l {A B} (R : A -> B -> Prop) l l' x : Forall2 R l l' -> In x l -> exists y, In y l' /\ R x y.
Proof. induction 1; intros []; subst; [eexists; split; [left; reflexivity|assumption]|]. destruct IHForall2 as (z & ? & ?); [assumption|]. exists z. split; [right|]; assumption. Qed.

Lemma covers_stands v : forall m, covers v m -> stands_for v m.
Proof.
  remember (size v) as n eqn:E. revert v E. induction n as [n IH] using lt_wf_ind. intros v -> m H.
  apply covers_children in H as H'.
  assert (HF : forall ms, Forall2 covers (children v) ms -> Forall2 stands_for (children v) ms).
  { intros ms F. assert (Hc : forall c, In c (children v) -> (size c < size v)%nat) by apply child_size.
    revert Hc. clear H'. induction F as [|c m1 cs ms0 Hc F IHF]; intros Hs; constructor.
    - eapply IH; [apply Hs; left; reflexivity|reflexivity|exact Hc].
    - apply IHF. intros. apply Hs. right. assumption. }
  destruct v as [t|nm s|nm l|l].
  - destruct H' as (t0 & -> & Hs). apply stands_leaf; [reflexivity|exact Hs].
  - destruct H' as (t0 & -> & Hs). apply stands_leaf; [reflexivity|exact Hs].
  - destruct H' as (ms & F & ->). apply stands_node; [|apply HF; exact F]. intros (t & Ht). exact (not_shows_node _ _ _ Ht).
  - destruct H' as (ms & F & ->). apply stands_node; [|apply HF; exact F]. intros (t & Ht). exact (not_shows_pass _ _ Ht).
Qed.

(** every visited node covers a contiguous part *)
Lemma visits_covers v l : visits v l -> forall m, covers v m ->
  Forall (fun c => exists p x q, m = p ++ x ++ q /\ covers c x) l.
Proof.
  revert v l. apply (visits_ind_strong (fun v l => forall m, covers v m -> Forall (fun c => exists p x q, m = p ++ x ++ q /\ covers c x) l)).
  intros v ls _ F m H. constructor.
  { exists [], m, []. rewrite app_nil_r. split; [reflexivity|exact H]. }
  apply covers_children in H as H'.
  destruct v as [t|nm s|nm fs|fs]; [cbn [children] in F; inversion F; constructor|cbn [children] in F; inversion F; constructor| |];
    destruct H' as (ms & Fc & ->); clear H; revert ms Fc;
    induction F as [|c x cs ls Hc F IH]; intros ms Fc; inversion Fc as [|? m1 ? ms' Hm1 Fc']; subst; cbn [List.concat]; try constructor;
    (apply Forall_app; split;
     [eapply Forall_impl; [|exact (Hc m1 Hm1)]; intros a (p & y & q & -> & Hy); exists p, y, (q ++ List.concat ms'); rewrite <- !app_assoc; auto
     |eapply Forall_impl; [|exact (IH ms' Fc')]; intros a (p & y & q & -> & Hy); exists (m1 ++ p), y, q; rewrite <- !app_assoc; auto]).
Qed.

(** the leaves among the visited nodes *)
Lemma is_leaf_shows v t : shows v t -> is_leaf v = true.
Proof. intros H. unfold is_leaf. apply shows_start in H as (-> & _ & -> & _). reflexivity. Qed.

Lemma is_leaf_node v m : covers v m -> (forall t, ~ shows v t) -> is_leaf v = false.
Proof.
  intros H Hn. unfold is_leaf. destruct (children v) as [|c cs] eqn:E; [|reflexivity].
  apply covers_loc in H as Hl. destruct Hl as [-> _].
  apply covers_children in H. destruct v as [t|nm s|nm l|l].
  - destruct H as (t0 & _ & Ht). destruct (Hn _ Ht).
  - destruct H as (t0 & _ & Ht). destruct (Hn _ Ht).
  - rewrite E in H. destruct H as (ms & F & ->). inversion F. reflexivity.
  - rewrite E in H. destruct H as (ms & F & ->). inversion F. reflexivity.
Qed.

Lemma visits_leaves v l : visits v l -> forall m, covers v m -> Forall2 shows (filter is_leaf l) m.
Proof.
  revert v l. apply (visits_ind_strong (fun v l => forall m, covers v m -> Forall2 shows (filter is_leaf l) m)).
  intros v ls _ F m H.
  assert (HN : (forall t, ~ shows v t) -> (exists ms, Forall2 covers (children v) ms /\ m = List.concat ms) ->
               Forall2 shows (filter is_leaf (v :: List.concat ls)) m).
  { intros Hn (ms & Fc & Em). cbn [filter]. rewrite (is_leaf_node v m H Hn). subst m. clear H. revert ms Fc.
    induction F as [|c x cs ls Hc F IH]; intros ms Fc; inversion Fc as [|? m1 ? ms' Hm1 Fc']; subst; cbn [List.concat]; [constructor|].
    rewrite filter_app. apply Forall2_app; [apply Hc; exact Hm1|apply IH; exact Fc']. }
  apply covers_children in H as H'. destruct v as [t|nm s|nm fs|fs].
  - cbn [children] in F. inversion F; subst. destruct H' as (t0 & -> & Hs). cbn [List.concat filter].
    rewrite (is_leaf_shows _ _ Hs). constructor; [exact Hs|constructor].
  - cbn [children] in F. inversion F; subst. destruct H' as (t0 & -> & Hs). cbn [List.concat filter].
    rewrite (is_leaf_shows _ _ Hs). constructor; [exact Hs|constructor].
  - apply HN; [apply not_shows_node|exact H'].
  - apply HN; [apply not_shows_pass|exact H'].
Qed.

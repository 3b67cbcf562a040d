(** PrintThms.v -- the printed lines determine the tree *)
From Verif Require Import Base Span Selmaho Lex Cst CstRules CstApi CstMain CstMeta CstTotal SpecCst SpecPrint CstTree SpecLex CstPrint CstNodes ClassifyThms.
From Coq Require Import Lia Arith.
Local Open Scope list_scope.

(** ** Lines of a seen tree *)


Fixpoint flat (level : N) (t : vtree) : list head :=
  match t with VT n s sp ks => (level, n, s, sp) :: flat_map (flat (level + 2)) ks end.

Lemma vtree_ind' (P : vtree -> Prop) (H : forall n s sp ks, Forall P ks -> P (VT n s sp ks)) : forall t, P t.
Proof.
  fix IH 1. intros [n s sp ks]. apply H. induction ks as [|t ks IHk]; constructor; [apply IH|exact IHk].
Qed.

Definition low (level : N) (r : list head) : Prop :=
  match r with [] => True | (l, _, _, _) :: _ => l < level end.

Lemma low_flat level ts r : low level r -> low (level + 2) (flat_map (flat level) ts ++ r).
Proof.
  destruct ts as [|[n s sp ks] ts]; cbn; [|lia]. destruct r as [|[[[l n] s] sp] r]; cbn; [auto|lia].
Qed.

Lemma forest_inj k : forall level ts ts' r r', (List.length (flat_map (flat level) ts) <= k)%nat ->
  low level r -> low level r' -> flat_map (flat level) ts ++ r = flat_map (flat level) ts' ++ r' -> ts = ts' /\ r = r'.
Proof.
  induction k as [|k IH]; intros level ts ts' r r' Hk L L' E.
  - destruct ts as [|[n s sp ks] ts]; [|cbn in Hk; lia].
    destruct ts' as [|[n s sp ks] ts']; [auto|]. cbn in E. subst r. cbn in L. lia.
  - destruct ts as [|[n s sp ks] ts].
    { destruct ts' as [|[n s sp ks] ts']; [auto|]. cbn in E. subst r. cbn in L. lia. }
    destruct ts' as [|[n' s' sp' ks'] ts'].
    { cbn in E. subst r'. cbn in L'. lia. }
    cbn [flat_map flat app] in E, Hk. rewrite <- !app_assoc in E. injection E as E1 E2 E3 E. subst.
    cbn [List.length] in Hk. rewrite ?app_length in Hk.
    destruct (IH (level + 2) ks ks' (flat_map (flat level) ts ++ r) (flat_map (flat level) ts' ++ r')) as [-> E'];
      [lia|apply low_flat, L|apply low_flat, L'|exact E|].
    destruct (IH level ts ts' r r') as [-> ->]; [lia|exact L|exact L'|exact E'|]. auto.
Qed.

Lemma flat_inj level t t' : flat level t = flat level t' -> t = t'.
Proof.
  intros E. destruct (forest_inj (List.length (flat level t)) level [t] [t'] [] []) as [X _].
  - cbn. rewrite app_nil_r. lia.
  - exact I.
  - exact I.
  - cbn. rewrite E. reflexivity.
  - congruence.
Qed.

(** ** What the printer prints *)

Lemma tip_unique v w : tip v w -> forall w', tip v w' -> w' = w.
Proof.
  induction 1 as [v H|v c w H T IH]; intros w' T'; inversion T' as [v0 H'|v0 c' w0 H' T'']; subst.
  - reflexivity.
  - exfalso. exact (H _ H').
  - exfalso. exact (H' _ H).
  - rewrite H in H'. inversion H'; subst. apply IH. exact T''.
Qed.

Lemma collapse_is_tip n : forall v w, collapse_node n v = Some w -> tip v w.
Proof.
  induction n as [|n IH]; intros v w H; [discriminate|]. cbn [collapse_node] in H.
  destruct (children v) as [|c [|c' cs]] eqn:E.
  - inversion H; subst. apply tip_here. rewrite E. discriminate.
  - eapply tip_down; [exact E|]. apply IH. exact H.
  - inversion H; subst. apply tip_here. rewrite E. discriminate.
Qed.

Lemma node_line_strip s level v l : node_line s level v = Ret l -> strip l = (level, node_name v, node_experimental v, extent v).
Proof.
  unfold node_line, extent. destruct (start_location v) as [a|]; [|intros H; inversion H; reflexivity].
  destruct (end_location v) as [b|]; cbn [unwrap obind]; [|discriminate].
  unfold span_new. destruct (a <=? b); cbn [obind]; [|discriminate].
  destruct (span_slice (mkspan a b) s) as [w|]; cbn [unwrap obind]; [|discriminate]. intros H. inversion H; subst. reflexivity.
Qed.

Lemma print_flat s collapse n : forall level v0 lines t, print_node n collapse s level v0 = Some (Ret lines) ->
  appears collapse v0 t -> map strip lines = flat level t.
Proof.
  induction n as [|n IH]; intros level v0 lines t H A; [discriminate|]. rewrite print_node_S in H.
  inversion A as [v0' v ts T F]; subst.
  assert (E : (if collapse then collapse_node (S n) v0 else Some v0) = Some v \/
              (if collapse then collapse_node (S n) v0 else Some v0) = None).
  { destruct collapse; [|subst; auto]. destruct (collapse_node (S n) v0) as [w|] eqn:E; [left|auto].
    apply collapse_is_tip in E. rewrite (tip_unique _ _ T _ E). reflexivity. }
  destruct E as [E|E]; rewrite E in H; [|discriminate]. clear E T A.
  destruct (kids (print_node n collapse s (level + 2)) (children v)) as [ks|] eqn:Ek; [|discriminate].
  destruct (node_line s level v) as [h| |] eqn:Eh; cbn [obind] in H; try discriminate.
  destruct ks as [ks| |]; cbn [obind] in H; try discriminate. inversion H; subst; clear H.
  cbn [map flat]. rewrite (node_line_strip _ _ _ _ Eh). f_equal. clear Eh h.
  revert ks Ek. induction F as [|c t cs ts Hc F IHF]; intros ks Ek; cbn [kids] in Ek.
  - inversion Ek; subst. reflexivity.
  - destruct (print_node n collapse s (level + 2) c) as [a|] eqn:Ea; [|discriminate].
    destruct (kids (print_node n collapse s (level + 2)) cs) as [b|]; [|discriminate].
    destruct a as [a| |]; cbn [obind] in Ek; try discriminate. destruct b as [b| |]; cbn [obind] in Ek; try discriminate.
    inversion Ek; subst. rewrite map_app, (IH _ _ _ _ Ea Hc), (IHF b eq_refl). reflexivity.
Qed.

Theorem print_injective collapse s s' v v' lines lines' t t' :
  print_tree collapse s v = Ret lines -> print_tree collapse s' v' = Ret lines' ->
  appears collapse v t -> appears collapse v' t' -> map strip lines = map strip lines' -> t = t'.
Proof.
  unfold print_tree. intros H H' A A' E.
  destruct (print_node (tree_size v) collapse s 0 v) as [r|] eqn:P; [|discriminate].
  destruct (print_node (tree_size v') collapse s' 0 v') as [r'|] eqn:P'; [|discriminate]. subst r r'.
  apply (flat_inj 0). rewrite <- (print_flat _ _ _ _ _ _ _ P A), <- (print_flat _ _ _ _ _ _ _ P' A'). exact E.
Qed.

(** ** What is seen exists, once, and shows the tokens *)

Lemma tip_exists v : exists w, tip v w /\ (size w <= size v)%nat.
Proof. destruct (collapse_tip (size v) v (Nat.le_refl _)) as (w & _ & T & S). eauto. Qed.

Lemma appears_exists collapse n : forall v, (size v <= n)%nat -> exists t, appears collapse v t.
Proof.
  induction n as [|n IH]; intros v Hv; [pose proof (size_pos v); lia|].
  assert (W : exists w, (if collapse then tip v w else w = v) /\ (size w <= size v)%nat).
  { destruct collapse; [apply tip_exists|exists v; auto]. }
  destruct W as (w & T & S).
  assert (K : exists ts, Forall2 (appears collapse) (children w) ts).
  { assert (C : forall c, In c (children w) -> (size c <= n)%nat) by (intros c Hc; apply child_size in Hc; lia).
    revert C. induction (children w) as [|c cs IHc]; intros C; [eauto|].
    destruct (IH c) as (t & Ht); [apply C; left; reflexivity|].
    destruct IHc as (ts & Hts); [intros; apply C; right; assumption|]. eauto. }
  destruct K as (ts & K). eexists. econstructor; eassumption.
Qed.

Lemma appears_unique collapse t : forall v t', appears collapse v t -> appears collapse v t' -> t = t'.
Proof.
  induction t as [n s sp ks IH] using vtree_ind'. intros v t' A A'.
  inversion A as [v0 w ts T F]; subst. inversion A' as [v0 w' ts' T' F']; subst.
  assert (w' = w) as -> by (destruct collapse; [eapply tip_unique; eassumption|congruence]).
  f_equal. clear T T' A A'. revert ts' F'. induction F as [|c t cs ks Hc F IHF]; intros ts' F'; inversion F'; subst; [reflexivity|].
  inversion IH; subst. f_equal; [eapply H2; eassumption|]. apply IHF; assumption.
Qed.

(** ** Words *)

(** what is seen of the leaves *)
Fixpoint leaf_heads (t : vtree) : list (string * bool * span) :=
  match t with
  | VT n s sp [] => match sp with Some a => [(n, s, a)] | None => [] end
  | VT _ _ _ ks => flat_map leaf_heads ks
  end.

Definition seen_as (h : string * bool * span) (t : token) : Prop :=
  let '(n, s, a) := h in
  a = tspan t /\ (n = as_repr (selmaho t) /\ s = experimental t \/ In n ["ZoiDelimiter"; "ZoiText"]%string).

Section Heads.
Context (R : val -> token -> Prop) (Q : string * bool * span -> token -> Prop)
  (RS : forall v t, R v t -> shows v t)
  (RQ : forall v t, R v t -> Q (node_name v, node_experimental v, tspan t) t).

Lemma coversR_covers v m : coversR R v m -> covers v m.
Proof. unfold coversR, covers. induction 1; constructor; auto. Qed.

Lemma tip_coversR v w : tip v w -> forall m, coversR R v m -> coversR R w m.
Proof.
  induction 1 as [v H|v c w H T IH]; intros m C; [exact C|]. apply IH.
  apply coversR_children in C. destruct v; try discriminate; destruct C as (ms & F & ->); rewrite H in F;
    inversion F as [|? m1 ? ms' F1 F2]; subst; inversion F2; subst; cbn [List.concat]; rewrite app_nil_r; exact F1.
Qed.

Lemma appears_heads collapse t : forall v m, appears collapse v t -> coversR R v m -> Forall2 Q (leaf_heads t) m.
Proof.
  induction t as [n s sp ks IH] using vtree_ind'. intros v0 m A C. inversion A as [v0' v ts T F]; subst.
  assert (Cv : coversR R v m) by (destruct collapse; [eapply tip_coversR; eassumption|subst; exact C]).
  assert (K : forall ms, Forall2 (coversR R) (children v) ms -> Forall2 Q (flat_map leaf_heads ks) (List.concat ms)).
  { clear - IH F. induction F as [|c t cs ks Hc F IHF]; intros ms G; inversion G as [|c0 y cs0 l' G1 G2]; subst; [constructor|].
    inversion IH as [|t0 ks0 I1 I2]; subst. cbn [flat_map List.concat]. apply Forall2_app; [exact (I1 c y Hc G1)|]. apply IHF; assumption. }
  pose proof (covers_loc v m (coversR_covers v m Cv)) as [El Er].
  destruct ks as [|k ks]; cbn [leaf_heads].
  - inversion F as [E|]; subst. unfold extent. rewrite El, Er. pose proof Cv as Cv'. apply coversR_children in Cv'.
    destruct v; cbn [children] in E.
    + destruct Cv' as (t0 & -> & Ht). apply RQ in Ht. cbn. destruct (tspan t0). repeat constructor. exact Ht.
    + destruct Cv' as (t0 & -> & Ht). apply RQ in Ht. cbn. destruct (tspan t0). repeat constructor. exact Ht.
    + destruct Cv' as (ms & G & ->). cbn [children] in G. rewrite <- E in G. inversion G; subst. constructor.
    + destruct Cv' as (ms & G & ->). cbn [children] in G. rewrite <- E in G. inversion G; subst. constructor.
  - pose proof Cv as Cv'. apply coversR_children in Cv'. destruct v; cbn [children] in F; try (inversion F; fail).
    + destruct Cv' as (ms & G & ->). exact (K ms G).
    + destruct Cv' as (ms & G & ->). exact (K ms G).
Qed.
End Heads.

Lemma seen_shows v t : shows v t -> seen_as (node_name v, node_experimental v, tspan t) t.
Proof. intros [->|(n & Hn & ->)]; split; auto. Qed.

(** without zoi all leaves are tokens *)
Definition istok (v : val) (t : token) : Prop := v = VTok t.

Lemma derives_istok e m v : derives crule e m v -> (forall t, In t m -> selmaho t <> S_Zoi) -> spanfree e = true -> coversR istok v m.
Proof.
  induction 1; intros Q S; cbn [spanfree] in S;
    try (match type of Q with forall t, In t (?a ++ ?b) -> _ =>
      assert (Q1 : forall t, In t a -> selmaho t <> S_Zoi) by (intros; apply Q, in_app_iff; auto);
      assert (Q2 : forall t, In t b -> selmaho t <> S_Zoi) by (intros; apply Q, in_app_iff; auto) end); try discriminate; auto;
    try (apply andb_true_iff in S as [S1 S2]); auto.
  - constructor; [reflexivity|constructor].
  - constructor; [reflexivity|constructor].
  - pose proof (spanfree_rules x) as P. apply negb_true_iff in S. rewrite S in P. cbn [orb] in P.
    assert (D : x = G_ZoiSumti \/ spanfree (crule x) = true) by (destruct x; auto). destruct D as [->|D]; [|auto].
    change (crule G_ZoiSumti) with (GNode "ZoiSumti" zoi_body) in H. inversion H as [| | | | | | | | | | | | | | | | | | | |? ? ? w Hd]; subst.
    unfold zoi_body, gtuple, tok_raw in Hd. cbn [fold_right] in Hd. repeat invd. cbn [app] in *.
    match goal with Hz : selmaho _ = S_Zoi |- _ => destruct (Q _ (or_introl eq_refl) Hz) end.
  - constructor.
  - unfold coversR. rewrite leaves_vcons. apply Forall2_app; auto; [apply IHderives1|apply IHderives2]; assumption.
  - unfold coversR. cbn [leaves flat_map]. rewrite app_nil_r. apply IHderives; assumption.
  - constructor.
  - constructor.
  - unfold coversR. rewrite leaves_vcons. apply Forall2_app; auto; [apply IHderives1|apply IHderives2]; assumption.
  - unfold coversR. rewrite leaves_vcons. apply Forall2_app; auto; [apply IHderives1|apply IHderives2]; assumption.
  - unfold coversR. cbn [leaves flat_map app]. rewrite app_nil_r. apply IHderives; assumption.
  - assert (IH2 : coversR istok (VPass [VPass l; x]) m2) by (apply IHderives2; [assumption|cbn [spanfree]; rewrite S1, S2; reflexivity]).
    unfold coversR in *. cbn [leaves flat_map] in *. rewrite <- !app_assoc. apply Forall2_app; [apply IHderives1; assumption|exact IH2].
  - unfold coversR. cbn [leaves]. apply coversR_fields. auto.
Qed.

Lemma root_istok toks root : cst_parse toks = Ret (inl root) -> ~ contains S_Zoi toks -> coversR istok root toks.
Proof.
  intros H N. apply cst_parse_derives in H. eapply derives_istok; [exact H| |reflexivity].
  intros t Ht E. apply N. exists t. auto.
Qed.

Definition token_head (h : string * bool * span) (t : token) : Prop :=
  h = (as_repr (selmaho t), experimental t, tspan t).

Lemma sel_not_zoi s : ~ In (as_repr s) ["ZoiDelimiter"; "ZoiText"]%string.
Proof.
  assert (K : forallb (fun s => negb (existsb (String.eqb (as_repr s)) ["ZoiDelimiter"; "ZoiText"]%string)) all_selmaho = true) by (vm_compute; reflexivity).
  rewrite forallb_forall in K. specialize (K s (nth_error_In _ _ (sel_index_nth s))). intros [H|[H|[]]]; rewrite <- H in K; discriminate.
Qed.

(** same heads *)
Lemma heads_spans hs : forall m m', Forall2 seen_as hs m -> Forall2 seen_as hs m' -> map tspan m = map tspan m'.
Proof.
  induction hs as [|[[n s] a] hs IH]; intros m m' H H'; inversion H as [|? t ? ts E F]; inversion H' as [|? u ? us E' F']; subst; cbn [map]; [reflexivity|].
  cbn in E, E'. destruct E as [E _], E' as [E' _]. f_equal; [congruence|]. apply IH; assumption.
Qed.

Lemma heads_tokens hs : forall m m', Forall2 token_head hs m -> Forall2 seen_as hs m' -> m' = m.
Proof.
  induction hs as [|[[n s] a] hs IH]; intros m m' H H'; inversion H as [|? t ? ts E F]; inversion H' as [|? u ? us K F']; subst; [reflexivity|].
  cbn in K. destruct K as [E' K]. unfold token_head in E. injection E as -> -> ->. f_equal; [|apply IH; assumption].
  destruct K as [[K1 K2]|K]; [|destruct (sel_not_zoi _ K)]. apply as_repr_inj in K1.
  destruct t, u; cbn in *. congruence.
Qed.

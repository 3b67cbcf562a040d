(** DeriveMore.v -- [longest], [cut], which declarations the macro accepts, and
    what the generated parsers inherit from the parsers of their fields *)
From Verif Require Import Base Span Selmaho Lex Cst Derive SpecDerive DeriveThms.
From Coq Require Import Lia Arith.
Local Open Scope list_scope.
Import Datatypes.

(** ** [longest] *)

Definition shorter (a b : list token * val) : Prop := (List.length (fst a) < List.length (fst b))%nat.
Definition noshorter (a b : list token * val) : Prop := (List.length (fst a) <= List.length (fst b))%nat.

Lemma min_rest_spec l : forall b m, min_rest b l = m <->
  (m = b /\ Forall (noshorter m) l) \/
  (exists pre post, l = pre ++ m :: post /\ shorter m b /\ Forall (shorter m) pre /\ Forall (noshorter m) post).
Proof.
  unfold shorter, noshorter.
  induction l as [|x l IH]; intros b m; cbn [min_rest].
  - split; [intros <-; left; split; [reflexivity|constructor]|].
    intros [[-> _]|(pre & post & E & _)]; [reflexivity|destruct pre; discriminate].
  - destruct (Nat.ltb_spec (List.length (fst x)) (List.length (fst b))) as [L|L]; rewrite IH; clear IH; split.
    + intros [[-> F]|(pre & post & -> & A & F1 & F2)]; right.
      * exists [], l. repeat split; auto.
      * exists (x :: pre), post. repeat split; auto. lia.
    + intros [[-> F]|(pre & post & E & A & F1 & F2)].
      * inversion F; subst. exfalso. lia.
      * destruct pre as [|y pre]; inversion E; subst; [left; split; [reflexivity|exact F2]|].
        inversion F1; subst. right. exists pre, post. auto.
    + intros [[-> F]|(pre & post & -> & A & F1 & F2)].
      * left. split; [reflexivity|]. constructor; [exact L|exact F].
      * right. exists (x :: pre), post. repeat split; auto. constructor; [lia|exact F1].
    + intros [[-> F]|(pre & post & E & A & F1 & F2)].
      * inversion F; subst. left. auto.
      * destruct pre as [|y pre]; inversion E; subst; [exfalso; lia|].
        inversion F1; subst. right. exists pre, post. auto.
Qed.

Definition result_of (i : list token) (p : parser) (x : list token * val + werror) : Prop :=
  match x with inl (r, v) => p i = COk r v | inr e => p i = CErr e end.

Lemma run_all_spec ps i : forall l, run_all ps i = inr l <-> Forall2 (result_of i) ps l.
Proof.
  induction ps as [|p ps IH]; intros l; cbn [run_all].
  - split; [intros E; inversion E; constructor|intros E; inversion E; reflexivity].
  - split.
    + destruct (p i) as [|r v|e|e] eqn:Ep; try discriminate;
        destruct (run_all ps i) as [s|l'] eqn:Er; try discriminate; intros E; inversion E; subst;
        (constructor; [exact Ep|apply IH; reflexivity]).
    + intros E. inversion E as [|p0 x ps0 l' H1 H2]; subst. apply IH in H2. rewrite H2.
      destruct x as [[r v]|e]; cbn in H1; rewrite H1; reflexivity.
Qed.

Lemma oks_split l : forall pre m post, oks l = pre ++ m :: post <->
  exists l1 l2, l = l1 ++ inl m :: l2 /\ oks l1 = pre /\ oks l2 = post.
Proof.
  induction l as [|x l IH]; intros pre m post.
  - split; [destruct pre; discriminate|]. intros (l1 & l2 & E & _). destruct l1; discriminate.
  - destruct x as [y|e].
    + change (oks (inl y :: l)) with (y :: oks l). split.
      * destruct pre as [|z pre]; cbn [app]; intros E; inversion E; subst.
        -- exists [], l. auto.
        -- apply IH in H1 as (l1 & l2 & -> & <- & <-). exists (inl z :: l1), l2. auto.
      * intros (l1 & l2 & E & <- & <-). destruct l1 as [|z l1]; inversion E; subst; [reflexivity|].
        change (oks (inl y :: l1)) with (y :: oks l1). cbn [app]. f_equal. apply IH. eauto.
    + change (oks (inr e :: l)) with (oks l). rewrite IH. split.
      * intros (l1 & l2 & -> & A & B). exists (inr e :: l1), l2. auto.
      * intros (l1 & l2 & E & A & B). destruct l1 as [|z l1]; inversion E; subst. eauto.
Qed.

Lemma oks_forall (P : list token * val -> Prop) l : Forall P (oks l) <-> Forall (fun x => match x with inl y => P y | inr _ => True end) l.
Proof.
  induction l as [|x l IH]; [split; constructor|]. destruct x as [y|e].
  - change (oks (inl y :: l)) with (y :: oks l). split; intros F; inversion F; subst; constructor; auto; apply IH; assumption.
  - change (oks (inr e :: l)) with (oks l). rewrite IH. split; [intros F; constructor; auto|intros F; inversion F; assumption].
Qed.


Lemma beaten_all (R : nat -> nat -> Prop) r i ps : (exists l, Forall2 (result_of i) ps l /\
    Forall (fun x => match x with inl y => R (List.length r) (List.length (fst y)) | inr _ => True end) l) <->
  Forall (beaten R r i) ps.
Proof.
  induction ps as [|p ps IH].
  - split; [constructor|]. intros _. exists []. split; constructor.
  - split.
    + intros (l & H & F). inversion H as [|p0 x ps0 l' H1 H2]; subst. inversion F; subst. constructor; [|apply IH; eauto].
      destruct x as [[r' v']|e]; cbn in *; [right; eauto|left; eauto].
    + intros F. inversion F as [|p0 ps0 B F']; subst. apply IH in F' as (l & H & G).
      destruct B as [(e & E)|(r' & v' & E & L)].
      * exists (inr e :: l). split; constructor; auto.
      * exists (inl (r', v') :: l). split; constructor; auto.
Qed.

Lemma longest_run ps i r v : p_longest ps i = COk r v <->
  exists pre p post, ps = pre ++ p :: post /\ p i = COk r v /\
    Forall (beaten lt r i) pre /\ Forall (beaten le r i) post.
Proof.
  unfold p_longest. split.
  - destruct (run_all ps i) as [s|l] eqn:E.
    { intros ->. exfalso. revert E. induction ps as [|p ps IH]; cbn [run_all]; [discriminate|].
      destruct (p i); try discriminate; destruct (run_all ps i); try discriminate; intros E; inversion E; subst; auto. }
    apply run_all_spec in E. destruct (oks l) as [|x k] eqn:Ek.
    { destruct (errs l); discriminate. }
    destruct (min_rest x k) as [r0 v0] eqn:Em. intros H. inversion H; subst; clear H. apply min_rest_spec in Em.
    assert (X : exists pre post, oks l = pre ++ (r, v) :: post /\ Forall (shorter (r, v)) pre /\ Forall (noshorter (r, v)) post).
    { destruct Em as [[<- F]|(pre & post & -> & A & F1 & F2)].
      - exists [], k. auto.
      - exists (x :: pre), post. rewrite Ek. auto. }
    destruct X as (pre & post & X & F1 & F2). apply oks_split in X as (l1 & l2 & -> & <- & <-).
    apply Forall2_app_inv_r in E as (p1 & p2 & G1 & G2 & ->). inversion G2 as [|q y p2' l2' G3 G4]; subst.
    exists p1, q, p2'. split; [reflexivity|]. split; [exact G3|]. apply oks_forall in F1. apply oks_forall in F2.
    split; apply beaten_all; eauto.
  - intros (pre & p & post & -> & Hp & F1 & F2). apply beaten_all in F1 as (l1 & A1 & B1). apply beaten_all in F2 as (l2 & A2 & B2).
    assert (E : run_all (pre ++ p :: post) i = inr (l1 ++ inl (r, v) :: l2)).
    { apply run_all_spec. apply Forall2_app; [exact A1|]. constructor; [exact Hp|exact A2]. }
    rewrite E. assert (X : oks (l1 ++ inl (r, v) :: l2) = oks l1 ++ (r, v) :: oks l2) by (apply oks_split; eauto).
    rewrite X. change (Forall (fun x => match x with inl y => shorter (r, v) y | inr _ => True end) l1) in B1.
    change (Forall (fun x => match x with inl y => noshorter (r, v) y | inr _ => True end) l2) in B2.
    apply oks_forall in B1. apply oks_forall in B2. destruct (oks l1) as [|x k]; cbn [app].
    + assert (M : min_rest (r, v) (oks l2) = (r, v)) by (apply min_rest_spec; auto). rewrite M. reflexivity.
    + inversion B1; subst. assert (M : min_rest x (k ++ (r, v) :: oks l2) = (r, v)).
      { apply min_rest_spec. right. exists k, (oks l2). auto. }
      rewrite M. reflexivity.
Qed.

Section More.
Context (env : ty -> parser) (withs : string -> parser -> parser)
        (container_with : string -> parser) (conds : string -> val -> bool).
Notation element := (element env withs).
Notation elements := (elements env withs).
Notation implement_struct := (implement_struct env withs).
Notation branches := (branches env withs).
Notation derive_parse := (derive_parse env withs container_with conds).
Notation reads := (reads env withs).
Notation reads_all := (reads_all env withs).
Notation field_parser := (field_parser env withs).
Notation nots_hold := (nots_hold env).

Definition vbeaten (R : nat -> nat -> Prop) (d : decl) (r i : list token) (x : variant) : Prop :=
  exists q, derive_parse (as_struct d x) = Parser q /\ beaten R r i q.

Lemma like_beaten R r i p q : like p q -> (beaten R r i p <-> beaten R r i q).
Proof.
  intros H. unfold beaten. split; intros [(e & E)|(r' & v' & E & L)].
  - left. apply (like_rejects p q i H). exists e. exact E.
  - right. exists r', v'. split; [apply (like_ok p q i r' v' H); exact E|exact L].
  - left. apply (like_rejects p q i H). exists e. exact E.
  - right. exists r', v'. split; [apply (like_ok p q i r' v' H); exact E|exact L].
Qed.

Lemma vbeaten_all R d r i vs ps :
  Forall2 (fun x p => exists q, derive_parse (as_struct d x) = Parser q /\ like p q) vs ps ->
  (Forall (beaten R r i) ps <-> Forall (vbeaten R d r i) vs).
Proof.
  induction 1 as [|x p vs ps (q & Eq & Hq) H IH]; [split; constructor|].
  split; intros F; inversion F; subst; constructor; try (apply IH; assumption).
  - exists q. split; [exact Eq|]. apply (like_beaten R r i p q Hq). assumption.
  - destruct H2 as (q' & Eq' & Hq'). rewrite Eq in Eq'. inversion Eq'; subst. apply (like_beaten R r i p q' Hq). assumption.
Qed.

Theorem longest_meaning d p vs :
  derive_parse d = Parser p -> d_data d = DEnum vs -> d_tree d <> TKSpanLeaf ->
  (forall w, ~ In (AWith w) (d_attrs d)) -> In ALongest (d_attrs d) ->
  forall i r v, p i = COk r v <->
    (exists pre x post q, vs = pre ++ x :: post /\ derive_parse (as_struct d x) = Parser q /\ q i = COk r v /\
       Forall (vbeaten lt d r i) pre /\ Forall (vbeaten le d r i) post) /\
    container_holds env conds (d_attrs d) r v.
Proof.
  intros H Hd Ht Hw Hl i r v. apply derive_run in H as (a & q & Ea & Eq & Hp). rewrite Hp. clear Hp.
  unfold implement_inner in Eq. destruct a as [an w pc lg mc]. apply container_spec in Ea as (H1 & H2 & H3 & H4 & H5).
  cbn [c_with c_must_consume c_longest] in Eq.
  destruct w as [w|]; [exfalso; apply (Hw w); apply H2; reflexivity|]. rewrite Hd in Eq.
  destruct (branches d vs) as [[|p0 ps]|] eqn:Eb; try discriminate.
  assert (lg = true) as -> by (apply H4; exact Hl).
  pose proof (branches_spec env withs container_with conds d vs _ Ht Eb) as HB.
  assert (q = p_longest (p0 :: ps)) as -> by congruence. clear Eq.
  assert (A : p_longest (p0 :: ps) i = COk r v <->
    exists pre x post q, vs = pre ++ x :: post /\ derive_parse (as_struct d x) = Parser q /\ q i = COk r v /\
       Forall (vbeaten lt d r i) pre /\ Forall (vbeaten le d r i) post).
  { rewrite longest_run. split.
    - intros (pre & q0 & post & E & Hq0 & F1 & F2).
      destruct (forall2_split _ _ _ HB _ _ _ E) as (pre' & x & post' & -> & G1 & (q1 & E1 & L1) & G2).
      exists pre', x, post', q1. split; [reflexivity|]. split; [exact E1|].
      split; [apply (like_ok _ _ i r v L1); exact Hq0|].
      split; [apply (vbeaten_all _ _ _ _ _ _ G1); exact F1|apply (vbeaten_all _ _ _ _ _ _ G2); exact F2].
    - intros (pre & x & post & q0 & E & E0 & Hq0 & F1 & F2).
      destruct (forall2_split_l _ _ _ HB _ _ _ E) as (pre' & q1 & post' & -> & G1 & (q2 & E2 & L2) & G2).
      rewrite E0 in E2. inversion E2; subst. exists pre', q1, post'. split; [reflexivity|].
      split; [apply (like_ok _ _ i r v L2); exact Hq0|].
      split; [apply (vbeaten_all _ _ _ _ _ _ G1); exact F1|apply (vbeaten_all _ _ _ _ _ _ G2); exact F2]. }
  rewrite A. reflexivity.
Qed.

(** ** [cut] *)

Lemma after_fail l : forall p i e, p i = CFail e -> fold_left (fun p t => p_not_after p (env t)) l p i = CFail e.
Proof.
  induction l as [|t l IH]; intros p i e H; cbn [fold_left]; [exact H|]. apply IH. unfold p_not_after. rewrite H. reflexivity.
Qed.

Lemma derive_fail d p : derive_parse d = Parser p -> forall a q i e,
  container_of (d_attrs d) = Some a -> implement_inner env withs container_with d a = Parser q ->
  q i = CFail e -> p i = CFail e.
Proof.
  unfold Derive.derive_parse. intros H a q i e Ea Eq Hq. rewrite Ea, Eq in H.
  destruct (c_post_conds a) as [|c cs].
  - inversion H; subst. apply after_fail. exact Hq.
  - destruct (longest_enum d a); [discriminate|]. inversion H; subst. apply after_fail. unfold check_post_conds. rewrite Hq. reflexivity.
Qed.

Lemma tuple_fail f pre post : forall ps i j vs e q,
  elements (pre ++ f :: post) = Some ps -> reads_all pre i j vs -> nots_hold f j -> In ACut (f_attrs f) ->
  field_parser f q -> q j = CErr e -> p_tuple ps i = CFail e.
Proof.
  induction pre as [|g pre IH]; intros ps i j vs e q H R N C F E; cbn [app Derive.elements] in H.
  - inversion R; subst. destruct (element f) as [p|] eqn:Ep; [|discriminate].
    destruct (elements post); [|discriminate]. inversion H; subst. cbn [p_tuple].
    apply element_inv in Ep as (q' & cut & nots & _ & Hc & Hn & Hu & -> & _).
    rewrite (Hu q F) in E. assert (cut = true) as -> by (apply Hc; exact C).
    assert (X : fold_right (fun t p => p_not_then (env t) p) (p_cut q') nots j = CFail e).
    { assert (N' : forall t, In t nots -> exists e, env t j = CErr e) by (intros t Ht; apply N, Hn, Ht).
      clear - N' E. induction nots as [|t l IH]; cbn [fold_right]; [unfold p_cut; rewrite E; reflexivity|].
      unfold p_not_then at 1. destruct (N' t (or_introl eq_refl)) as (e' & ->). apply IH. intros u Hu. apply N'. right. exact Hu. }
    rewrite X. reflexivity.
  - inversion R as [|g0 gs i0 r1 r0 v vs' R1 R2]; subst. destruct (element g) as [p|] eqn:Ep; [|discriminate].
    destruct (elements (pre ++ f :: post)) as [ps'|] eqn:Eps; [|discriminate]. inversion H; subst. cbn [p_tuple].
    apply (element_ok env withs g p Ep) in R1. rewrite R1. rewrite (IH ps' r1 j vs' e q eq_refl R2 N C F E). reflexivity.
Qed.

Theorem cut_struct d p fs pre f post :
  derive_parse d = Parser p -> d_data d = DStruct fs -> (forall w, ~ In (AWith w) (d_attrs d)) ->
  fields_in fs = pre ++ f :: post -> In ACut (f_attrs f) ->
  forall i j vs q e, reads_all pre i j vs -> nots_hold f j -> field_parser f q -> q j = CErr e -> p i = CFail e.
Proof.
  intros H Hd Hw Hf C i j vs q e R N F E.
  pose proof H as H0. apply derive_run in H as (a & q0 & Ea & Eq & _).
  apply (derive_fail d p H0 a q0 i e Ea Eq).
  unfold implement_inner in Eq. destruct a as [an w pc lg mc]. apply container_spec in Ea as (H1 & H2 & H3 & H4 & H5).
  cbn [c_with c_must_consume] in Eq.
  destruct w as [w|]; [exfalso; apply (Hw w); apply H2; reflexivity|]. rewrite Hd in Eq.
  unfold Derive.implement_struct in Eq.
  assert (K : match elements (pre ++ f :: post) with
      | None => Rejected
      | Some [] => if mc then Rejected else Parser (fun i => COk i (construct d None (VPass [])))
      | Some ps =>
          let inner := p_map (construct d None) (p_tuple ps) in
          Parser (if mc then p_must_consume (constructor_name None) inner else inner)
      end = Parser q0).
  { rewrite <- Hf. destruct fs as [l|l|]; [exact Eq|exact Eq|discriminate]. }
  destruct (elements (pre ++ f :: post)) as [ps|] eqn:Eps; [|discriminate].
  pose proof (tuple_fail f pre post ps i j vs e q Eps R N C F E) as X.
  destruct ps as [|p0 ps]; [discriminate X|]. cbn zeta in K.
  revert X K. generalize (p_tuple (p0 :: ps)) as t. intros t X K.
  assert (q0 = if mc then p_must_consume (constructor_name None) (p_map (construct d None) t) else p_map (construct d None) t) as -> by congruence.
  destruct mc; unfold p_must_consume, p_map; rewrite X; reflexivity.
Qed.

Lemma alt_fail ps : forall a i e, 
  (a i = CFail e \/ rejects a i /\ exists pre p post, ps = pre ++ p :: post /\ Forall (fun q => rejects q i) pre /\ p i = CFail e) ->
  p_alt a ps i = CFail e.
Proof.
  unfold p_alt. induction ps as [|p ps IH]; intros a i e; cbn [fold_left].
  - intros [H|(_ & pre & q & post & E & _)]; [exact H|destruct pre; discriminate].
  - intros [H|[(x & H) (pre & q & post & E & F & Hq)]]; apply IH.
    + left. unfold p_or. rewrite H. reflexivity.
    + destruct pre as [|p' pre]; inversion E; subst.
      * left. unfold p_or. rewrite H, Hq. reflexivity.
      * inversion F as [|? ? (e' & He') F']; subst. right. split.
        { eexists. unfold p_or. rewrite H, He'. reflexivity. }
        exists pre, q, post. auto.
Qed.

Lemma like_fail p q i e : like p q -> (p i = CFail e <-> q i = CFail e).
Proof.
  intros H. specialize (H i). split; intros E; rewrite E in H; destruct (q i), (p i); try contradiction; try discriminate; subst; congruence.
Qed.

Theorem cut_enum d p vs pre x post q :
  derive_parse d = Parser p -> d_data d = DEnum vs -> d_tree d <> TKSpanLeaf ->
  (forall w, ~ In (AWith w) (d_attrs d)) -> ~ In ALongest (d_attrs d) ->
  vs = pre ++ x :: post -> derive_parse (as_struct d x) = Parser q ->
  forall i e, Forall (fun y => exists q, derive_parse (as_struct d y) = Parser q /\ rejects q i) pre ->
  q i = CFail e -> p i = CFail e.
Proof.
  intros H Hd Ht Hw Hl Hv Hx i e F E.
  pose proof H as H0. apply derive_run in H as (a & q0 & Ea & Eq & _).
  apply (derive_fail d p H0 a q0 i e Ea Eq).
  unfold implement_inner in Eq. destruct a as [an w pc lg mc]. apply container_spec in Ea as (H1 & H2 & H3 & H4 & H5).
  cbn [c_with c_must_consume c_longest] in Eq.
  destruct w as [w|]; [exfalso; apply (Hw w); apply H2; reflexivity|]. rewrite Hd in Eq.
  destruct (branches d vs) as [[|p0 ps]|] eqn:Eb; try discriminate.
  destruct lg; [exfalso; apply Hl, H4; reflexivity|].
  pose proof (branches_spec env withs container_with conds d vs _ Ht Eb) as HB.
  assert (q0 = if mc then p_must_consume (d_name d) (p_alt p0 ps) else p_alt p0 ps) as -> by congruence. clear Eq.
  destruct (forall2_split_l _ _ _ HB _ _ _ Hv) as (pre' & q1 & post' & E1 & G1 & (q2 & E2 & L2) & _).
  rewrite Hx in E2. inversion E2; subst q2.
  assert (X : p_alt p0 ps i = CFail e).
  { apply alt_fail. apply (like_fail q1 q i e L2) in E.
    pose proof (proj2 (rejects_all _ _ _ _ d i _ _ G1) F) as F'.
    destruct pre' as [|p' pre']; inversion E1; subst; [left; exact E|].
    inversion F'; subst. right. split; [assumption|]. exists pre', q1, post'. auto. }
  destruct mc; [unfold p_must_consume|]; rewrite X; reflexivity.
Qed.

(** ** Which declarations are accepted *)


Lemma get_container_some l : forall an w pc lg mc,
  (exists a, get_container l (mkca an w pc lg mc) = Some a) <->
  (~ In ACut l /\ (forall t, ~ In (ANot t) l)) /\ (withs_in l + (if w then 1 else 0) <= 1)%nat.
Proof.
  induction l as [|a l IH]; intros an w pc lg mc; cbn [get_container withs_in].
  - split; [|eauto]. intros _. split; [split; [auto|intros t []]|destruct w; lia].
  - assert (Z : forall b (P : Prop), (forall t, b <> ANot t) -> b <> ACut ->
        ((~ In ACut l /\ (forall t, ~ In (ANot t) l)) /\ P <-> (~ In ACut (b :: l) /\ (forall t, ~ In (ANot t) (b :: l))) /\ P)).
    { intros b P B1 B2. cbn [In]. split; intros [[X Y] W]; (split; [split|exact W]).
      - intros [Q|Q]; [congruence|auto].
      - intros t [Q|Q]; [eapply B1; exact Q|eapply Y; exact Q].
      - intros Q. apply X. right. exact Q.
      - intros t Q. apply (Y t). right. exact Q. }
    destruct a.
    + split; [intros (a & E); discriminate|]. intros [[X _] _]. exfalso. apply X. left. reflexivity.
    + destruct w as [w|].
      * split; [intros (a & E); discriminate|]. intros [_ L]. exfalso. lia.
      * rewrite IH, <- Z by (intros; discriminate). split; intros [X L]; (split; [exact X|lia]).
    + split; [intros (a & E); discriminate|]. intros [[_ X] _]. exfalso. apply (X t). left. reflexivity.
    + rewrite IH. apply Z; intros; discriminate.
    + rewrite IH. apply Z; intros; discriminate.
    + rewrite IH. apply Z; intros; discriminate.
    + rewrite IH. apply Z; intros; discriminate.
Qed.


Lemma container_some l : (exists a, container_of l = Some a) <-> container_fine l.
Proof. unfold container_of, container_fine. rewrite get_container_some. cbn. rewrite Nat.add_0_r. tauto. Qed.


Lemma get_field_some l : forall c ns an w,
  (exists fa, get_field l (mkfa c ns an w) = Some fa) <->
  (withs_in l + (if w then 1 else 0) <= 1)%nat /\
  forall a, In a l -> field_attr a \/ exists t, a = ANotAfter t.
Proof.
  induction l as [|a l IH]; intros c ns an w; cbn [get_field withs_in].
  - split; [|intros _; eauto 6]. intros _. split; [destruct w; lia|intros a []].
  - assert (Z : forall b (P : Prop), (field_attr b \/ exists t, b = ANotAfter t) ->
        ((P /\ forall a, In a l -> field_attr a \/ exists t, a = ANotAfter t) <->
         (P /\ forall a, In a (b :: l) -> field_attr a \/ exists t, a = ANotAfter t))).
    { intros b P B. cbn [In]. split; intros [X Y]; (split; [exact X|]).
      - intros x [<-|Q]; [exact B|apply Y; exact Q].
      - intros x Q. apply Y. right. exact Q. }
    assert (N : forall b, ~ (field_attr b \/ exists t, b = ANotAfter t) -> 
       ((exists fa : field_attrs, @None field_attrs = Some fa) <->
       (withs_in l + (if w then 1 else 0) <= 1)%nat /\ forall a, In a (b :: l) -> field_attr a \/ exists t, a = ANotAfter t)).
    { intros b B. split; [intros (fa & E); discriminate|]. intros [_ X]. exfalso. apply B, X. left. reflexivity. }
    destruct a.
    + rewrite IH. apply Z. left. exact I.
    + destruct w as [w|].
      * split; [intros (fa & E); discriminate|]. intros [L _]. exfalso. lia.
      * rewrite IH, <- Z by (left; exact I). split; intros [L X]; (split; [lia|exact X]).
    + rewrite IH. apply Z. left. exact I.
    + rewrite IH. apply Z. right. eauto.
    + apply N. intros [[]|(t & E)]; discriminate.
    + apply N. intros [[]|(t & E)]; discriminate.
    + apply N. intros [[]|(t & E)]; discriminate.
Qed.

Lemma element_some f : (exists p, element f = Some p) <-> field_fine f.
Proof.
  unfold field_fine. split.
  - intros (p & E). pose proof E as E0. apply element_inv in E0 as (_ & _ & _ & _ & _ & _ & _ & _ & NA).
    unfold Derive.element in E. destruct (field_attrs_of (f_attrs f)) as [fa|] eqn:Ef; [|discriminate].
    assert (X : exists fa, field_attrs_of (f_attrs f) = Some fa) by eauto.
    apply get_field_some in X as [L X]. cbn in L. rewrite Nat.add_0_r in L. split; [exact L|].
    intros a Ha. destruct (X a Ha) as [Y|(t & ->)]; [exact Y|]. exfalso. apply (NA t Ha).
  - intros [L X]. unfold Derive.element.
    assert (Y : exists fa, field_attrs_of (f_attrs f) = Some fa).
    { apply get_field_some. cbn. split; [lia|]. intros a Ha. left. apply X, Ha. }
    destruct Y as ([c ns an w] & Y). rewrite Y. apply field_attrs_spec in Y as (_ & _ & H3 & _).
    destruct an as [|t an]; [eauto|]. exfalso. apply (X (ANotAfter t)). apply H3. left. reflexivity.
Qed.

Lemma elements_some l : (exists ps, elements l = Some ps) <-> Forall field_fine l.
Proof.
  induction l as [|f l IH]; cbn [Derive.elements]; [split; [constructor|eauto]|]. split.
  - intros (ps & E). destruct (element f) as [p|] eqn:Ep; [|discriminate]. destruct (elements l) as [ps'|] eqn:El; [|discriminate].
    constructor; [apply element_some; eauto|apply IH; eauto].
  - intros F. inversion F; subst. apply element_some in H1 as (p & ->). apply IH in H2 as (ps & ->). eauto.
Qed.


Lemma struct_some d x fs mc : (exists p, implement_struct d x fs mc = Parser p) <-> fields_fine fs (mc = true).
Proof.
  unfold Derive.implement_struct, fields_fine.
  assert (K : forall l, (exists p, match elements l with
      | None => Rejected
      | Some [] => if mc then Rejected else Parser (fun i => COk i (construct d x (VPass [])))
      | Some ps =>
          let inner := p_map (construct d x) (p_tuple ps) in
          Parser (if mc then p_must_consume (constructor_name x) inner else inner)
      end = Parser p) <-> Forall field_fine l /\ (mc = true -> l <> [])).
  { intros l. rewrite <- elements_some. split.
    - intros (p & E). destruct (elements l) as [ps|] eqn:El; [|discriminate]. split; [eauto|].
      intros M ->. cbn in El. inversion El; subst. discriminate.
    - intros [(ps & E) N]. rewrite E. destruct ps as [|p0 ps]; [|cbn zeta; eauto].
      destruct mc; [|eauto]. exfalso. apply (N eq_refl). apply (elements_nil env withs l [] E). reflexivity. }
  destruct fs as [l|l|]; cbn [fields_in].
  - rewrite K. split; [intros [A B]; split; [discriminate|auto]|tauto].
  - rewrite K. split; [intros [A B]; split; [discriminate|auto]|tauto].
  - split; [intros (p & E); discriminate|intros [A _]; congruence].
Qed.


Lemma variant_some l : forall b, (forall a, In a l -> a = ANonEmpty) -> exists mc, get_variant l b = Some mc.
Proof.
  induction l as [|a l IH]; intros b H; cbn [get_variant]; [eauto|].
  rewrite (H a (or_introl eq_refl)). apply IH. intros x Hx. apply H. right. exact Hx.
Qed.

Lemma fields_fine_iff fs P Q : (P <-> Q) -> (fields_fine fs P <-> fields_fine fs Q).
Proof. unfold fields_fine. tauto. Qed.

Lemma branches_some d vs : (exists ps, branches d vs = Some ps) <-> Forall variant_fine vs.
Proof.
  induction vs as [|x vs IH]; cbn [Derive.branches]; [split; [constructor|eauto]|].
  assert (V : variant_fine x <-> exists mc p, variant_attrs_of (v_attrs x) = Some mc /\ v_fields x <> Unit /\ implement_struct d (Some x) (v_fields x) mc = Parser p).
  { unfold variant_fine. split.
    - intros [A B]. destruct (variant_some _ false A) as (mc & E). exists mc.
      pose proof (variant_spec _ _ _ E) as [M _].
      assert (Y : fields_fine (v_fields x) (mc = true)).
      { revert B. apply fields_fine_iff. rewrite M. intuition discriminate. }
      pose proof Y as [U _]. apply (struct_some d (Some x)) in Y as (p & Y). eauto.
    - intros (mc & p & E & U & S). pose proof (variant_spec _ _ _ E) as [M A]. split; [exact A|].
      assert (Y : fields_fine (v_fields x) (mc = true)) by (apply (struct_some d (Some x)); eauto).
      revert Y. apply fields_fine_iff. rewrite M. intuition discriminate. }
  split.
  - intros (ps & E). destruct (variant_attrs_of (v_attrs x)) as [mc|] eqn:Ev; [|discriminate].
    assert (X : v_fields x <> Unit /\ match implement_struct d (Some x) (v_fields x) mc, branches d vs with
          | Parser p, Some ps => Some (p :: ps)
          | _, _ => None
          end = Some ps).
    { destruct (v_fields x); [split; [discriminate|exact E]|split; [discriminate|exact E]|discriminate]. }
    destruct X as [U X]. destruct (implement_struct d (Some x) (v_fields x) mc) as [| |p] eqn:Ep; try discriminate.
    destruct (branches d vs) as [ps'|]; [|discriminate].
    constructor; [apply V; eauto|apply IH; eauto].
  - intros F. inversion F; subst. apply V in H1 as (mc & p & E & U & S). apply IH in H2 as (ps & H2).
    rewrite E, H2. exists (p :: ps). destruct (v_fields x); [rewrite S; reflexivity|rewrite S; reflexivity|congruence].
Qed.


Theorem accepted d : (exists p, derive_parse d = Parser p) <->
  container_fine (d_attrs d) /\ ((exists w, In (AWith w) (d_attrs d)) \/ data_fine d).
Proof.
  unfold Derive.derive_parse. rewrite <- container_some.
  destruct (container_of (d_attrs d)) as [a|] eqn:Ea.
  2: { split; [intros (p & E); discriminate|intros [(a & E) _]; discriminate]. }
  destruct a as [an w pc lg mc]. apply container_spec in Ea as (H1 & H2 & H3 & H4 & H5).
  assert (P : forall (o : derived) (b : bool), (exists p, match o with
      | Parser p =>
          let after p := fold_left (fun p t => p_not_after p (env t)) an p in
          match pc with
          | [] => Parser (after p)
          | c :: cs => if b then Rejected else Parser (after (check_post_conds conds (c :: cs) p))
          end
      | Rejected => Rejected
      | Panics => Panics
      end = Parser p) <-> (exists p, o = Parser p) /\ (pc = [] \/ b = false)).
  { intros o b. split.
    - intros (p & E). destruct o as [| |q]; try discriminate. split; [eauto|].
      destruct pc; [auto|]. destruct b; [discriminate|auto].
    - intros [(p & ->) X]. cbn zeta. destruct pc; [eauto|]. destruct X as [X| ->]; [discriminate|eauto]. }
  etransitivity; [exact (P (implement_inner env withs container_with d (mkca an w pc lg mc)) (longest_enum d (mkca an w pc lg mc)))|].
  clear P. unfold implement_inner, longest_enum, data_fine. cbn [c_with c_longest c_must_consume].
  assert (T : forall X : Prop, (exists a, Some (mkca an w pc lg mc) = Some a) /\ X <-> X).
  { intros X. split; [tauto|intros Y; split; eauto]. }
  rewrite T. clear T.
  destruct w as [w|].
  - split; [intros _; left; exists w; apply H2; reflexivity|]. intros _. split; [eauto|auto].
  - assert (W : ~ exists w, In (AWith w) (d_attrs d)).
    { intros (w & Hw). apply H2 in Hw. discriminate. }
    assert (PC : pc <> [] <-> exists c, In (APostCond c) (d_attrs d)).
    { split.
      - destruct pc as [|c pc]; [congruence|]. intros _. exists c. apply H3. left. reflexivity.
      - intros (c & Hc) ->. apply H3 in Hc. destruct Hc. }
    destruct (d_data d) as [fs|vs|].
    + rewrite struct_some, (fields_fine_iff fs _ _ H5). tauto.
    + assert (B : (exists p, match branches d vs with
          | None | Some [] => Rejected
          | Some (p :: ps) =>
              Parser (if lg then p_longest (p :: ps)
                      else if mc then p_must_consume (d_name d) (p_alt p ps)
                      else p_alt p ps)
          end = Parser p) <-> vs <> [] /\ Forall variant_fine vs).
      { rewrite <- (branches_some d). split.
        - intros (p & E). destruct (branches d vs) as [[|p0 ps]|] eqn:Eb; try discriminate. split; [|eauto].
          intros ->. discriminate.
        - intros [N (ps & E)]. rewrite E. destruct ps; [|eauto].
          exfalso. destruct vs as [|x vs]; [congruence|]. cbn [Derive.branches] in E.
          destruct (variant_attrs_of (v_attrs x)); [|discriminate].
          destruct (v_fields x); try discriminate;
            match type of E with match ?o with _ => _ end = _ => destruct o end; try discriminate;
            destruct (branches d vs); discriminate. }
      rewrite B. rewrite <- H4, <- PC. split.
      * intros [[A C] D]. right. split; [exact A|]. split; [exact C|]. intros [L N]. destruct D as [D|D]; congruence.
      * intros [X|(A & C & D)]; [contradiction|]. split; [auto|]. destruct lg; [|auto]. destruct pc; [auto|].
        exfalso. apply D. split; [reflexivity|discriminate].
    + split; [intros [(p & E) _]; discriminate|tauto].
Qed.

(** ** Fatal failures, exactly *)

Lemma get_field_nots l : forall c ns an w c' ns' an' w',
  get_field l (mkfa c ns an w) = Some (mkfa c' ns' an' w') -> ns' = ns ++ nots_in l.
Proof.
  induction l as [|a l IH]; intros c ns an w c' ns' an' w' H; cbn [get_field] in H.
  - inversion H; subst. cbn. rewrite app_nil_r. reflexivity.
  - destruct a; try discriminate; [|destruct w; [discriminate|]| |]; apply IH in H; rewrite H; [reflexivity|reflexivity| |reflexivity].
    cbn. rewrite <- app_assoc. reflexivity.
Qed.

Lemma get_container_afters l : forall an w pc lg mc an' w' pc' lg' mc',
  get_container l (mkca an w pc lg mc) = Some (mkca an' w' pc' lg' mc') -> an' = an ++ not_afters_in l.
Proof.
  induction l as [|a l IH]; intros an w pc lg mc an' w' pc' lg' mc' H; cbn [get_container] in H.
  - inversion H; subst. cbn. rewrite app_nil_r. reflexivity.
  - destruct a; try discriminate; [destruct w; [discriminate|]| | | |]; apply IH in H; rewrite H; try reflexivity.
    cbn. rewrite <- app_assoc. reflexivity.
Qed.

Lemma nots_fail l p : forall i e,
  fold_right (fun t p => p_not_then (env t) p) p l i = CFail e <->
  try_fails env l i e \/ (forall t, In t l -> exists x, env t i = CErr x) /\ p i = CFail e.
Proof.
  unfold try_fails. induction l as [|t l IH]; intros i e; cbn [fold_right].
  - split; [intros H; right; split; [intros t []|exact H]|]. intros [(pre & t & post & E & _)|[_ H]]; [destruct pre; discriminate|exact H].
  - unfold p_not_then at 1. split.
    + destruct (env t i) as [|r v|x|x] eqn:E; try discriminate.
      * intros H. apply IH in H as [(pre & u & post & -> & A & B)|[A B]].
        -- left. exists (t :: pre), u, post. split; [reflexivity|]. split; [|exact B]. intros s [<-|Hs]; eauto.
        -- right. split; [|exact B]. intros s [<-|Hs]; eauto.
      * intros H. inversion H; subst. left. exists [], t, l. split; [reflexivity|]. split; [intros u []|exact E].
    + intros [(pre & u & post & E & A & B)|[A B]].
      * destruct pre as [|s pre]; inversion E; subst; [rewrite B; reflexivity|].
        destruct (A s (or_introl eq_refl)) as (x & ->). apply IH. left. exists pre, u, post. split; [reflexivity|].
        split; [|exact B]. intros y Hy. apply A. right. exact Hy.
      * destruct (A t (or_introl eq_refl)) as (x & ->). apply IH. right. split; [|exact B]. intros y Hy. apply A. right. exact Hy.
Qed.

Lemma element_fail f p : element f = Some p -> forall i e, p i = CFail e <-> field_fails env withs f i e.
Proof.
  intros H i e. pose proof H as H0. apply element_inv in H0 as (q & cut & nots & Hq & Hc & Hn & Hu & Hp & _).
  unfold Derive.element in H. destruct (field_attrs_of (f_attrs f)) as [[c ns an w]|] eqn:Ef; [|discriminate].
  pose proof (get_field_nots _ _ _ _ _ _ _ _ _ Ef) as Hns. cbn [app] in Hns.
  pose proof (field_attrs_spec _ _ _ _ _ Ef) as (F1 & F2 & F3 & F4). destruct an as [|x an]; [|discriminate].
  assert (Eq : match w with None => env (f_ty f) | Some s => withs s (env (elem_type (f_ty f))) end = q).
  { apply Hu. destruct w as [w|]; [apply FWith, F4; reflexivity|]. apply FPlain. intros s Hs. apply F4 in Hs. discriminate. }
  rewrite Eq in H. assert (Hc' : c = cut).
  { destruct c, cut; try reflexivity; exfalso.
    - assert (false = true) by (apply Hc, F1; reflexivity). discriminate.
    - assert (false = true) by (apply F1, Hc; reflexivity). discriminate. }
  subst c ns. clear Hp Hn.
  assert (p = fold_right (fun t p => p_not_then (env t) p) (if cut then p_cut q else q) (nots_in (f_attrs f))) as -> by congruence.
  rewrite nots_fail. unfold field_fails, SpecDerive.nots_hold.
  assert (N : forall P : Prop, (forall t, In t (nots_in (f_attrs f)) -> exists x, env t i = CErr x) /\ P <->
     (forall t, In (ANot t) (f_attrs f) -> exists x, env t i = CErr x) /\ P).
  { intros P. split; intros [A B]; (split; [|exact B]); intros t Ht; apply A, F2, Ht. }
  rewrite N.
  assert (C : forall q, field_parser f q -> ((if cut then p_cut q else q) i = CFail e <-> q i = CFail e \/ In ACut (f_attrs f) /\ q i = CErr e)).
  { intros q' _. destruct cut.
    - assert (In ACut (f_attrs f)) by (apply F1; reflexivity). unfold p_cut. destruct (q' i); intuition congruence.
    - split; [auto|]. intros [X|[X _]]; [exact X|]. apply F1 in X. discriminate. }
  split; (intros [A|[A B]]; [left; exact A|right; split; [exact A|]]).
  - eexists. split; [exact Hq|]. apply C; assumption.
  - destruct B as (q' & Hq' & B). rewrite (Hu q' Hq') in B. apply C; assumption.
Qed.

Lemma elements_fail l : forall ps, elements l = Some ps -> forall i e, p_tuple ps i = CFail e <->
  exists pre f post j vs, l = pre ++ f :: post /\ reads_all pre i j vs /\ field_fails env withs f j e.
Proof.
  induction l as [|f l IH]; intros ps H i e; cbn [Derive.elements] in H.
  - inversion H; subst. cbn. split; [discriminate|]. intros (pre & f & post & j & vs & E & _). destruct pre; discriminate.
  - destruct (element f) as [p|] eqn:Ep; [|discriminate]. destruct (elements l) as [ps'|] eqn:Eps; [|discriminate].
    inversion H; subst; clear H. cbn [p_tuple]. split.
    + destruct (p i) as [|r1 v1|x|x] eqn:E1; try discriminate.
      * destruct (p_tuple ps' r1) as [|r2 v2|x|x] eqn:E2; try discriminate. intros E. inversion E; subst.
        apply (IH ps' eq_refl) in E2 as (pre & g & post & j & vs & -> & R & F).
        exists (f :: pre), g, post, j, (v1 :: vs). split; [reflexivity|]. split; [|exact F].
        econstructor; [|exact R]. apply (element_ok env withs f p Ep). exact E1.
      * intros E. inversion E; subst. exists [], f, l, i, []. split; [reflexivity|]. split; [constructor|].
        apply (element_fail f p Ep). exact E1.
    + intros (pre & g & post & j & vs & E & R & F). destruct pre as [|h pre]; inversion E; subst.
      * inversion R; subst. apply (element_fail g p Ep) in F. rewrite F. reflexivity.
      * inversion R as [|h0 hs i0 r1 r0 v vs' R1 R2]; subst. apply (element_ok env withs h p Ep) in R1. rewrite R1.
        assert (X : p_tuple ps' r1 = CFail e) by (apply (IH ps' eq_refl); exists pre, g, post, j, vs'; auto).
        rewrite X. reflexivity.
Qed.

Lemma must_consume_fail n p i e : p_must_consume n p i = CFail e <-> p i = CFail e.
Proof. unfold p_must_consume. destruct (p i); try tauto. destruct (same_len rest i); split; discriminate. Qed.

Lemma struct_run_fail d x fs mc p : implement_struct d x fs mc = Parser p -> forall i e, p i = CFail e <->
  exists pre f post j vs, fields_in fs = pre ++ f :: post /\ reads_all pre i j vs /\ field_fails env withs f j e.
Proof.
  unfold Derive.implement_struct. intros H i e.
  assert (K : forall l, match elements l with
      | None => Rejected
      | Some [] => if mc then Rejected else Parser (fun i => COk i (construct d x (VPass [])))
      | Some ps =>
          let inner := p_map (construct d x) (p_tuple ps) in
          Parser (if mc then p_must_consume (constructor_name x) inner else inner)
      end = Parser p -> p i = CFail e <->
      exists pre f post j vs, l = pre ++ f :: post /\ reads_all pre i j vs /\ field_fails env withs f j e).
  { clear H. intros l H. destruct (elements l) as [ps|] eqn:E; [|discriminate].
    rewrite <- (elements_fail l ps E i e).
    destruct ps as [|q ps].
    - destruct mc; [discriminate|]. inversion H; subst. cbn. split; discriminate.
    - cbn zeta in H. revert H. generalize (p_tuple (q :: ps)) as t. intros t H.
      assert (p = if mc then p_must_consume (constructor_name x) (p_map (construct d x) t) else p_map (construct d x) t) as -> by congruence.
      assert (M : p_map (construct d x) t i = CFail e <-> t i = CFail e).
      { unfold p_map. destruct (t i); split; intros X; try discriminate; exact X. }
      destruct mc; [rewrite must_consume_fail|]; exact M. }
  destruct fs as [l|l|]; [apply K; exact H|apply K; exact H|discriminate].
Qed.

Lemma after_fails l : forall p i e,
  fold_left (fun p t => p_not_after p (env t)) l p i = CFail e <->
  p i = CFail e \/ exists r v, p i = COk r v /\ try_fails env l r e.
Proof.
  unfold try_fails. induction l as [|t l IH]; intros p i e; cbn [fold_left].
  - split; [auto|]. intros [H|(r & v & _ & pre & t & post & E & _)]; [exact H|destruct pre; discriminate].
  - rewrite IH. unfold p_not_after. split.
    + intros [H|(r & v & H & pre & u & post & -> & A & B)].
      * destruct (p i) as [|r v|x|x]; try discriminate; [|left; exact H].
        destruct (env t r) as [|r1 v1|x|x] eqn:E; try discriminate. inversion H; subst.
        right. exists r, v. split; [reflexivity|]. exists [], t, l. split; [reflexivity|]. split; [intros u []|exact E].
      * destruct (p i) as [|r0 v0|x|x]; try discriminate. destruct (env t r0) as [|r1 v1|x|x] eqn:E; try discriminate.
        inversion H; subst. right. exists r, v. split; [reflexivity|]. exists (t :: pre), u, post. split; [reflexivity|].
        split; [|exact B]. intros s [<-|Hs]; eauto.
    + intros [H|(r & v & H & pre & u & post & E & A & B)].
      * left. rewrite H. reflexivity.
      * rewrite H. destruct pre as [|s pre]; inversion E; subst; [left; rewrite B; reflexivity|].
        destruct (A s (or_introl eq_refl)) as (x & ->). right. exists r, v. split; [reflexivity|]. exists pre, u, post.
        split; [reflexivity|]. split; [|exact B]. intros y Hy. apply A. right. exact Hy.
Qed.

Lemma derive_run_fail d p : derive_parse d = Parser p -> exists a q,
  container_of (d_attrs d) = Some a /\ implement_inner env withs container_with d a = Parser q /\
  forall i e, p i = CFail e <-> q i = CFail e \/ exists r v, q i = COk r v /\
    (forall c, In (APostCond c) (d_attrs d) -> conds c v = true) /\ try_fails env (not_afters_in (d_attrs d)) r e.
Proof.
  unfold Derive.derive_parse. destruct (container_of (d_attrs d)) as [a|] eqn:Ea; [|discriminate].
  destruct (implement_inner env withs container_with d a) as [| |q] eqn:Eq; try discriminate. intros H.
  exists a, q. split; [reflexivity|]. split; [exact Eq|]. intros i e.
  destruct a as [an w pc lg mc]. pose proof (get_container_afters _ _ _ _ _ _ _ _ _ _ _ Ea) as Han. cbn [app] in Han.
  apply container_spec in Ea as (H1 & H2 & H3 & H4 & H5).
  cbn [c_post_conds c_after_nots] in H. subst an.
  destruct pc as [|c pc].
  - inversion H; subst. rewrite after_fails. split; (intros [A|(r & v & A & B)]; [left; exact A|right; exists r, v]).
    + split; [exact A|]. split; [|exact B]. intros c Hc. apply H3 in Hc. destruct Hc.
    + split; [exact A|apply B].
  - destruct (longest_enum d _); [discriminate|]. inversion H; subst. rewrite after_fails. split.
    + intros [A|(r & v & A & B)].
      * unfold check_post_conds in A. destruct (q i); try discriminate; [|left; exact A].
        destruct (forallb _ _); discriminate.
      * apply (post_run withs container_with) in A as [A C]. right. exists r, v. split; [exact A|]. split; [|exact B]. intros x Hx. apply C, H3, Hx.
    + intros [A|(r & v & A & C & B)].
      * left. unfold check_post_conds. rewrite A. reflexivity.
      * right. exists r, v. split; [|exact B]. apply (post_run withs container_with). split; [exact A|]. intros x Hx. apply C, H3, Hx.
Qed.

Theorem struct_failure d p fs :
  derive_parse d = Parser p -> d_data d = DStruct fs -> (forall w, ~ In (AWith w) (d_attrs d)) ->
  forall i e, p i = CFail e <->
    (exists pre f post j vs, fields_in fs = pre ++ f :: post /\ reads_all pre i j vs /\ field_fails env withs f j e) \/
    (exists r vs, reads_all (fields_in fs) i r vs /\ (In ANonEmpty (d_attrs d) -> List.length r <> List.length i) /\
       (forall c, In (APostCond c) (d_attrs d) -> conds c (value_of (d_tree d) (d_name d) vs) = true) /\
       try_fails env (not_afters_in (d_attrs d)) r e).
Proof.
  intros H Hd Hw i e. apply derive_run_fail in H as (a & q & Ea & Eq & Hp). rewrite Hp. clear Hp.
  unfold implement_inner in Eq. destruct a as [an w pc lg mc]. apply container_spec in Ea as (H1 & H2 & H3 & H4 & H5).
  cbn [c_with c_must_consume] in Eq.
  destruct w as [w|]; [exfalso; apply (Hw w); apply H2; reflexivity|]. rewrite Hd in Eq.
  rewrite (struct_run_fail _ _ _ _ _ Eq).
  assert (M : forall r v (P : val -> Prop), (q i = COk r v /\ P v <-> exists vs, reads_all (fields_in fs) i r vs /\
      (In ANonEmpty (d_attrs d) -> List.length r <> List.length i) /\ v = value_of (d_tree d) (d_name d) vs /\ P v)).
  { intros r v P. rewrite (struct_run env withs container_with conds _ _ _ _ _ Eq (fun _ => eq_refl)). cbn [node_name_of]. split.
    - intros [(vs & A & B & C) D]. exists vs. split; [exact A|]. split; [intros N; apply C, H5, N|]. auto.
    - intros (vs & A & B & C & D). split; [|exact D]. exists vs. split; [exact A|]. split; [exact C|]. intros N. apply B, H5, N. }
  split; (intros [A|A]; [left; exact A|right]).
  - destruct A as (r & v & A). apply (M r v (fun v => (forall c, In (APostCond c) (d_attrs d) -> conds c v = true) /\ try_fails env (not_afters_in (d_attrs d)) r e)) in A as (vs & A & B & -> & C & D).
    exists r, vs. auto.
  - destruct A as (r & vs & A & B & C & D). exists r, (value_of (d_tree d) (d_name d) vs).
    apply (M r _ (fun v => (forall c, In (APostCond c) (d_attrs d) -> conds c v = true) /\ try_fails env (not_afters_in (d_attrs d)) r e)).
    exists vs. auto.
Qed.

Lemma alt_fail_inv ps : forall a i e, p_alt a ps i = CFail e ->
  a i = CFail e \/ rejects a i /\ exists pre p post, ps = pre ++ p :: post /\ Forall (fun q => rejects q i) pre /\ p i = CFail e.
Proof.
  unfold p_alt. induction ps as [|p ps IH]; intros a i e; cbn [fold_left]; [auto|].
  intros H. apply IH in H as [H|[(x & H) (pre & q & post & -> & F & Hq)]]; unfold p_or in H.
  - destruct (a i) as [|r v|x|x] eqn:Ea; try discriminate; [|left; exact H].
    right. split; [exists x; exact Ea|]. exists [], p, ps. split; [reflexivity|]. split; [constructor|].
    destruct (p i); try discriminate. exact H.
  - destruct (a i) as [|r v|y|y] eqn:Ea; try discriminate. destruct (p i) as [|r v|z|z] eqn:Ep; try discriminate.
    right. split; [exists y; exact Ea|]. exists (p :: pre), q, post. split; [reflexivity|]. split; [|exact Hq].
    constructor; [exists z; exact Ep|exact F].
Qed.

Theorem enum_failure d p vs :
  derive_parse d = Parser p -> d_data d = DEnum vs -> d_tree d <> TKSpanLeaf ->
  (forall w, ~ In (AWith w) (d_attrs d)) -> ~ In ALongest (d_attrs d) -> not_afters_in (d_attrs d) = [] ->
  forall i e, p i = CFail e <->
    exists pre x post q, vs = pre ++ x :: post /\ derive_parse (as_struct d x) = Parser q /\
      Forall (fun y => exists q, derive_parse (as_struct d y) = Parser q /\ rejects q i) pre /\ q i = CFail e.
Proof.
  intros H Hd Ht Hw Hl Hna i e. split.
  2: { intros (pre & x & post & q & -> & Hx & F & E).
       exact (cut_enum d p _ pre x post q H Hd Ht Hw Hl eq_refl Hx i e F E). }
  intros E. apply derive_run_fail in H as (a & q & Ea & Eq & Hp). apply Hp in E as [E|(r & v & _ & _ & X)].
  2: { rewrite Hna in X. destruct X as (pre & t & post & X & _). destruct pre; discriminate. }
  clear Hp. unfold implement_inner in Eq. destruct a as [an w pc lg mc]. apply container_spec in Ea as (H1 & H2 & H3 & H4 & H5).
  cbn [c_with c_must_consume c_longest] in Eq.
  destruct w as [w|]; [exfalso; apply (Hw w); apply H2; reflexivity|]. rewrite Hd in Eq.
  destruct (branches d vs) as [[|p0 ps]|] eqn:Eb; try discriminate.
  destruct lg; [exfalso; apply Hl, H4; reflexivity|].
  pose proof (branches_spec env withs container_with conds d vs _ Ht Eb) as HB.
  assert (q = if mc then p_must_consume (d_name d) (p_alt p0 ps) else p_alt p0 ps) as -> by congruence. clear Eq.
  assert (E' : p_alt p0 ps i = CFail e) by (destruct mc; [apply must_consume_fail in E|]; exact E).
  apply alt_fail_inv in E'.
  assert (X : exists pre q post, p0 :: ps = pre ++ q :: post /\ Forall (fun q => rejects q i) pre /\ q i = CFail e).
  { destruct E' as [E'|[R (pre & q & post & -> & F & Hq)]]; [exists [], p0, ps; auto|exists (p0 :: pre), q, post; auto]. }
  destruct X as (pre & q & post & X & F & Hq).
  destruct (forall2_split _ _ _ HB _ _ _ X) as (pre' & x & post' & -> & G1 & (q1 & E1 & L1) & _).
  exists pre', x, post', q1. split; [reflexivity|]. split; [exact E1|].
  split; [apply (rejects_all env withs container_with conds d i _ _ G1); exact F|]. apply (like_fail _ _ i e L1). exact Hq.
Qed.

(** [longest]: a failure of any variant, the first of them *)
Lemma run_all_fail ps i e : run_all ps i = inl (CFail e) <->
  exists pre p post, ps = pre ++ p :: post /\ Forall (fun q => exists x, result_of i q x) pre /\ p i = CFail e.
Proof.
  induction ps as [|p ps IH]; cbn [run_all].
  - split; [discriminate|]. intros (pre & p & post & E & _). destruct pre; discriminate.
  - split.
    + destruct (p i) as [|r v|x|x] eqn:Ep; try discriminate.
      * destruct (run_all ps i) as [s|l]; [|discriminate]. intros E. inversion E; subst.
        destruct (proj1 IH eq_refl) as (pre & q & post & -> & F & Hq). exists (p :: pre), q, post. split; [reflexivity|].
        split; [|exact Hq]. constructor; [exists (inl (r, v)); exact Ep|exact F].
      * destruct (run_all ps i) as [s|l]; [|discriminate]. intros E. inversion E; subst.
        destruct (proj1 IH eq_refl) as (pre & q & post & -> & F & Hq). exists (p :: pre), q, post. split; [reflexivity|].
        split; [|exact Hq]. constructor; [exists (inr x); exact Ep|exact F].
      * intros E. inversion E; subst. exists [], p, ps. auto.
    + intros (pre & q & post & E & F & Hq). destruct pre as [|p' pre]; inversion E; subst; [rewrite Hq; reflexivity|].
      inversion F as [|? ? (x & Hx) F']; subst. assert (R : run_all (pre ++ q :: post) i = inl (CFail e)) by (apply IH; exists pre, q, post; auto).
      rewrite R. destruct x as [[r v]|x]; cbn in Hx; rewrite Hx; reflexivity.
Qed.


Theorem longest_failure d p vs :
  derive_parse d = Parser p -> d_data d = DEnum vs -> d_tree d <> TKSpanLeaf ->
  (forall w, ~ In (AWith w) (d_attrs d)) -> In ALongest (d_attrs d) -> not_afters_in (d_attrs d) = [] ->
  forall i e, p i = CFail e <->
    exists pre x post q, vs = pre ++ x :: post /\ derive_parse (as_struct d x) = Parser q /\
      Forall (fun y => exists q, derive_parse (as_struct d y) = Parser q /\ not_fatal q i) pre /\ q i = CFail e.
Proof.
  intros H Hd Ht Hw Hl Hna i e.
  apply derive_run_fail in H as (a & q & Ea & Eq & Hp). rewrite Hp.
  assert (Z : (q i = CFail e \/ exists r v, q i = COk r v /\
    (forall c, In (APostCond c) (d_attrs d) -> conds c v = true) /\ try_fails env (not_afters_in (d_attrs d)) r e) <-> q i = CFail e).
  { split; [|auto]. intros [E|(r & v & _ & _ & X)]; [exact E|]. rewrite Hna in X. destruct X as (pre & t & post & X & _). destruct pre; discriminate. }
  rewrite Z. clear Z Hp.
  unfold implement_inner in Eq. destruct a as [an w pc lg mc]. apply container_spec in Ea as (H1 & H2 & H3 & H4 & H5).
  cbn [c_with c_must_consume c_longest] in Eq.
  destruct w as [w|]; [exfalso; apply (Hw w); apply H2; reflexivity|]. rewrite Hd in Eq.
  destruct (branches d vs) as [[|p0 ps]|] eqn:Eb; try discriminate.
  assert (lg = true) as -> by (apply H4; exact Hl).
  pose proof (branches_spec env withs container_with conds d vs _ Ht Eb) as HB.
  assert (q = p_longest (p0 :: ps)) as -> by congruence. clear Eq.
  assert (L : p_longest (p0 :: ps) i = CFail e <-> run_all (p0 :: ps) i = inl (CFail e)).
  { unfold p_longest. destruct (run_all (p0 :: ps) i) as [s|l]; [split; congruence|]. split; [|discriminate].
    destruct (oks l) as [|x k]; [destruct (errs l); discriminate|destruct (min_rest x k); discriminate]. }
  rewrite L, run_all_fail.
  assert (NF : forall vs ps, Forall2 (fun x p => exists q, derive_parse (as_struct d x) = Parser q /\ like p q) vs ps ->
     (Forall (fun q => exists x, result_of i q x) ps <-> Forall (fun y => exists q, derive_parse (as_struct d y) = Parser q /\ not_fatal q i) vs)).
  { clear. intros vs ps. induction 1 as [|x p vs ps (q & Eq & Hq) H IH]; [split; constructor|].
    assert (R : (exists x, result_of i p x) <-> not_fatal q i).
    { unfold not_fatal. split.
      - intros ([[r v]|e] & E); cbn in E; [left; exists r, v; apply (like_ok p q i r v Hq), E|right; apply (like_rejects p q i Hq); exists e; exact E].
      - intros [(r & v & E)|E]; [exists (inl (r, v)); apply (like_ok p q i r v Hq), E|].
        apply (like_rejects p q i Hq) in E as (e & E). exists (inr e). exact E. }
    split; intros F; inversion F; subst; constructor; try (apply IH; assumption).
    - exists q. split; [exact Eq|]. apply R. assumption.
    - destruct H2 as (q' & Eq' & Hq'). rewrite Eq in Eq'. inversion Eq'; subst. apply R. assumption. }
  split.
  - intros (pre & q & post & X & F & Hq).
    destruct (forall2_split _ _ _ HB _ _ _ X) as (pre' & x & post' & -> & G1 & (q1 & E1 & L1) & _).
    exists pre', x, post', q1. split; [reflexivity|]. split; [exact E1|].
    split; [apply (NF _ _ G1); exact F|]. apply (like_fail _ _ i e L1). exact Hq.
  - intros (pre & x & post & q & X & Ex & F & Hq).
    destruct (forall2_split_l _ _ _ HB _ _ _ X) as (pre' & q1 & post' & -> & G1 & (q2 & E2 & L2) & _).
    rewrite Ex in E2. inversion E2; subst q2. exists pre', q1, post'. split; [reflexivity|].
    split; [apply (NF _ _ G1); exact F|]. apply (like_fail _ _ i e L2). exact Hq.
Qed.

(** ** What generated parsers inherit *)

Scheme made_of_ind2 := Minimality for made_of Sort Prop
  with made_of_all_ind2 := Minimality for made_of_all Sort Prop.

Lemma reads_all_prefix l : forall i r vs,
  (forall t, takes_prefix (env t)) -> (forall w p, takes_prefix p -> takes_prefix (withs w p)) ->
  reads_all l i r vs -> exists m, i = m ++ r /\ made_of_all vs m.
Proof.
  intros i r vs He Hw. induction 1 as [i|f fs i r r' v vs [_ (p & Hp & E)] R (m & -> & M)].
  - exists []. split; [reflexivity|constructor].
  - assert (T : takes_prefix p) by (destruct Hp; auto). apply T in E as (k & -> & K).
    exists (k ++ m). split; [apply app_assoc|]. constructor; assumption.
Qed.

Lemma value_made k n vs m : made_of_all vs m -> made_of (value_of k n vs) m.
Proof.
  intros H. destruct k; cbn [value_of]; [constructor; exact H|constructor; exact H|].
  destruct vs as [|v [|v' vs]]; [constructor; exact H| |destruct v; constructor; exact H].
  destruct v; try (constructor; exact H).
  inversion H as [|v0 vs0 m0 m1 H1 H2]; subst. inversion H2; subst. inversion H1; subst. rewrite app_nil_r. constructor.
Qed.

Theorem takes_prefix_derived d p :
  derive_parse d = Parser p -> (d_tree d = TKSpanLeaf -> forall vs, d_data d <> DEnum vs) ->
  (forall t, takes_prefix (env t)) -> (forall w q, takes_prefix q -> takes_prefix (withs w q)) ->
  (forall w, takes_prefix (container_with w)) ->
  takes_prefix p.
Proof.
  intros H Ht He Hw Hc i r v E.
  destruct (container_of (d_attrs d)) as [a|] eqn:Ea; [|unfold Derive.derive_parse in H; rewrite Ea in H; discriminate].
  destruct a as [an w pc lg mc]. pose proof (container_spec _ _ _ _ _ _ Ea) as (H1 & H2 & H3 & H4 & H5).
  pose proof H as H0. apply derive_run in H0 as (a & q & Ea' & Eq & Hp). rewrite Ea in Ea'. inversion Ea'; subst a.
  destruct w as [w|].
  { unfold implement_inner in Eq. cbn [c_with] in Eq. inversion Eq; subst. apply Hp in E as [E _]. exact (Hc w i r v E). }
  assert (W : forall w, ~ In (AWith w) (d_attrs d)) by (intros w Hin; apply H2 in Hin; discriminate).
  assert (S : forall d p fs, derive_parse d = Parser p -> d_data d = DStruct fs -> (forall w, ~ In (AWith w) (d_attrs d)) -> takes_prefix p).
  { clear - He Hw. intros d p fs H Hd W i r v E. apply (struct_meaning env withs container_with conds d p fs H Hd W) in E as (vs & R & -> & _).
    destruct (reads_all_prefix _ _ _ _ He Hw R) as (m & -> & M). exists m. split; [reflexivity|]. apply value_made. exact M. }
  destruct (d_data d) as [fs|vs|] eqn:Ed.
  - exact (S d p fs H Ed W i r v E).
  - assert (Ht' : d_tree d <> TKSpanLeaf) by (intros X; apply (Ht X vs); reflexivity).
    assert (K : exists x q, In x vs /\ derive_parse (as_struct d x) = Parser q /\ q i = COk r v).
    { destruct lg.
      - assert (L : In ALongest (d_attrs d)) by (apply H4; reflexivity).
        apply (longest_meaning d p vs H Ed Ht' W L) in E as [(pre & x & post & q0 & -> & E1 & E2 & _) _].
        exists x, q0. split; [apply in_elt|auto].
      - assert (L : ~ In ALongest (d_attrs d)) by (intros X; apply H4 in X; discriminate).
        apply (enum_meaning env withs container_with conds d p vs H Ed Ht' W L) in E as [(pre & x & post & -> & _ & q0 & E1 & E2) _].
        exists x, q0. split; [apply in_elt|auto]. }
    destruct K as (x & q0 & Hx & E1 & E2).
    refine (S (as_struct d x) q0 (v_fields x) E1 eq_refl _ i r v E2).
    intros w Hin. cbn [d_attrs as_struct] in Hin.
    assert (F : Forall variant_fine vs).
    { assert (A : exists p, derive_parse d = Parser p) by eauto. apply accepted in A as [_ [(w' & A)|A]]; [exfalso; exact (W w' A)|].
      unfold data_fine in A. rewrite Ed in A. apply A. }
    rewrite Forall_forall in F. destruct (F x Hx) as [A _]. specialize (A _ Hin). discriminate.
  - unfold implement_inner in Eq. cbn [c_with] in Eq. rewrite Ed in Eq. discriminate.
Qed.
End More.

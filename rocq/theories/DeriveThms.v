(** DeriveThms.v -- the generated parsers meet SpecDerive.v *)
From Verif Require Import Base Span Selmaho Lex Cst Derive SpecDerive.
From Coq Require Import Lia Arith.
Local Open Scope list_scope.
Import Datatypes.

(** ** Attributes *)

Lemma get_field_spec2 l : forall c ns an w c' ns' an' w',
  get_field l (mkfa c ns an w) = Some (mkfa c' ns' an' w') ->
  (c' = true <-> c = true \/ In ACut l) /\
  (forall t, In t ns' <-> In t ns \/ In (ANot t) l) /\
  (forall t, In t an' <-> In t an \/ In (ANotAfter t) l) /\
  (forall s, w' = Some s <-> w = Some s \/ In (AWith s) l).
Proof.
  induction l as [|a l IH]; intros c ns an w c' ns' an' w' H; cbn [get_field] in H.
  - inversion H; subst. cbn. intuition.
  - destruct a; try discriminate; [|destruct w; [discriminate|]| |];
      apply IH in H as (H1 & H2 & H3 & H4); (split; [|split; [|split]]); intros;
      rewrite ?H1, ?H2, ?H3, ?H4, ?in_app_iff; cbn [In]; clear;
      intuition (try discriminate; try congruence;
        try match goal with H : _ = _ |- _ => inversion H; subst end; auto).
Qed.

Lemma field_attrs_spec l c ns an w : field_attrs_of l = Some (mkfa c ns an w) ->
  (c = true <-> In ACut l) /\
  (forall t, In t ns <-> In (ANot t) l) /\
  (forall t, In t an <-> In (ANotAfter t) l) /\
  (forall s, w = Some s <-> In (AWith s) l).
Proof.
  intros H. apply get_field_spec2 in H as (H1 & H2 & H3 & H4).
  split; [|split; [|split]]; intros; rewrite ?H1, ?H2, ?H3, ?H4; cbn [In]; intuition discriminate.
Qed.

Lemma get_container_spec l : forall an w pc lg mc an' w' pc' lg' mc',
  get_container l (mkca an w pc lg mc) = Some (mkca an' w' pc' lg' mc') ->
  (forall t, In t an' <-> In t an \/ In (ANotAfter t) l) /\
  (forall s, w' = Some s <-> w = Some s \/ In (AWith s) l) /\
  (forall c, In c pc' <-> In c pc \/ In (APostCond c) l) /\
  (lg' = true <-> lg = true \/ In ALongest l) /\
  (mc' = true <-> mc = true \/ In ANonEmpty l).
Proof.
  induction l as [|a l IH]; intros an w pc lg mc an' w' pc' lg' mc' H; cbn [get_container] in H.
  - inversion H; subst. cbn. intuition.
  - destruct a; try discriminate; [destruct w; [discriminate|]| | | |];
      apply IH in H as (H1 & H2 & H3 & H4 & H5); (split; [|split; [|split; [|split]]]); intros;
      rewrite ?H1, ?H2, ?H3, ?H4, ?H5, ?in_app_iff; cbn [In]; clear;
      intuition (try discriminate; try congruence;
        try match goal with H : _ = _ |- _ => inversion H; subst end; auto).
Qed.

Lemma container_spec l an w pc lg mc : container_of l = Some (mkca an w pc lg mc) ->
  (forall t, In t an <-> In (ANotAfter t) l) /\
  (forall s, w = Some s <-> In (AWith s) l) /\
  (forall c, In c pc <-> In (APostCond c) l) /\
  (lg = true <-> In ALongest l) /\
  (mc = true <-> In ANonEmpty l).
Proof.
  intros H. apply get_container_spec in H as (H1 & H2 & H3 & H4 & H5).
  split; [|split; [|split; [|split]]]; intros; rewrite ?H1, ?H2, ?H3, ?H4, ?H5; cbn [In]; intuition discriminate.
Qed.

Lemma variant_spec l : forall b mc, get_variant l b = Some mc -> (mc = true <-> b = true \/ In ANonEmpty l) /\ (forall a, In a l -> a = ANonEmpty).
Proof.
  induction l as [|a l IH]; intros b mc H; cbn [get_variant] in H.
  - inversion H; subst. cbn. intuition.
  - destruct a; try discriminate. apply IH in H as [H1 H2]. split.
    + rewrite H1. cbn [In]. intuition.
    + intros a [<-|Ha]; [reflexivity|apply H2; exact Ha].
Qed.

(** ** Fields *)

Section Thms.
Context (env : ty -> parser) (withs : string -> parser -> parser)
        (container_with : string -> parser) (conds : string -> val -> bool).
Notation element := (element env withs).
Notation elements := (elements env withs).
Notation implement_struct := (implement_struct env withs).
Notation branches := (branches env withs).
Notation derive_parse := (derive_parse env withs container_with conds).
Notation reads := (reads env withs).
Notation reads_all := (reads_all env withs).
Notation field_parser := (field_parser env withs).
Notation nots_hold := (nots_hold env).

Lemma nots_run l p : forall i r v,
  fold_right (fun t p => p_not_then (env t) p) p l i = COk r v <->
  (forall t, In t l -> exists e, env t i = CErr e) /\ p i = COk r v.
Proof.
  induction l as [|t l IH]; intros i r v; cbn [fold_right].
  - intuition. destruct H0.
  - unfold p_not_then at 1. split.
    + destruct (env t i) as [|r0 v0|e|e] eqn:E; try discriminate. intros H. apply IH in H as [H1 H2].
      split; [|exact H2]. intros u [<-|Hu]; [eauto|auto].
    + intros [H1 H2]. destruct (H1 t (or_introl eq_refl)) as (e & ->). apply IH. split; [|exact H2].
      intros u Hu. apply H1. right. exact Hu.
Qed.

(** an element of the macro is one parser, behind its [not]s and perhaps cut *)
Lemma element_inv f p : element f = Some p -> exists q cut nots,
  field_parser f q /\ (cut = true <-> In ACut (f_attrs f)) /\ (forall t, In t nots <-> In (ANot t) (f_attrs f)) /\
  (forall q', field_parser f q' -> q' = q) /\
  p = fold_right (fun t p => p_not_then (env t) p) (if cut then p_cut q else q) nots /\
  (forall t, ~ In (ANotAfter t) (f_attrs f)).
Proof.
  unfold Derive.element. destruct (field_attrs_of (f_attrs f)) as [[cut nots an w]|] eqn:E; [|discriminate].
  apply field_attrs_spec in E as (H1 & H2 & H3 & H4). destruct an as [|x an]; [|discriminate]. intros H.
  inversion H; subst; clear H.
  exists (match w with None => env (f_ty f) | Some s => withs s (env (elem_type (f_ty f))) end), cut, nots.
  assert (HA : forall t, ~ In (ANotAfter t) (f_attrs f)).
  { intros t Ht. apply H3 in Ht. destruct Ht. }
  destruct w as [w|].
  - repeat split; try apply H1; try apply H2; try assumption.
    + apply FWith. apply H4. reflexivity.
    + intros q' [Hn|w' Hw']; [exfalso; apply (Hn w); apply H4; reflexivity|].
      apply H4 in Hw'. congruence.
  - repeat split; try apply H1; try apply H2; try assumption.
    + apply FPlain. intros s Hs. apply H4 in Hs. discriminate.
    + intros q' [Hn|w' Hw']; [reflexivity|]. apply H4 in Hw'. discriminate.
Qed.

Lemma element_ok f p : element f = Some p -> forall i r v, p i = COk r v <-> reads f i r v.
Proof.
  intros H i r v. apply element_inv in H as (q & cut & nots & Hq & Hc & Hn & Hu & -> & _).
  rewrite nots_run. unfold SpecDerive.reads, SpecDerive.nots_hold.
  assert (C : (if cut then p_cut q else q) i = COk r v <-> q i = COk r v).
  { destruct cut; [|tauto]. unfold p_cut. destruct (q i); intuition discriminate. }
  rewrite C. split.
  - intros [H1 H2]. split; [intros t Ht; apply H1, Hn, Ht|]. exists q. auto.
  - intros [H1 (q' & Hq' & H2)]. rewrite (Hu q' Hq') in H2. split; [intros t Ht; apply H1, Hn, Ht|exact H2].
Qed.

Lemma elements_ok l : forall ps, elements l = Some ps -> forall i r w, p_tuple ps i = COk r w <->
  exists vs, w = VPass vs /\ reads_all l i r vs.
Proof.
  induction l as [|f l IH]; intros ps H i r w; cbn [Derive.elements] in H.
  - inversion H; subst. cbn. split.
    + intros E. inversion E; subst. exists []. split; [reflexivity|constructor].
    + intros (vs & -> & E). inversion E; subst. reflexivity.
  - destruct (element f) as [p|] eqn:Ep; [|discriminate]. destruct (elements l) as [ps'|] eqn:Eps; [|discriminate].
    inversion H; subst; clear H. cbn [p_tuple]. split.
    + destruct (p i) as [|r1 v1|e|e] eqn:E1; try discriminate.
      destruct (p_tuple ps' r1) as [|r2 v2|e|e] eqn:E2; try discriminate. intros E. inversion E; subst.
      apply (IH ps' eq_refl) in E2 as (vs & -> & E2). exists (v1 :: vs). split; [reflexivity|].
      econstructor; [|exact E2]. apply (element_ok f p Ep). exact E1.
    + intros (vs & -> & E). inversion E as [|f0 fs0 i0 r1 r0 v vs' H1 H2]; subst.
      apply (element_ok f p Ep) in H1. rewrite H1.
      assert (X : p_tuple ps' r1 = COk r (VPass vs')) by (apply (IH ps' eq_refl); eauto).
      rewrite X. reflexivity.
Qed.

Lemma elements_nil l ps : elements l = Some ps -> (ps = [] <-> l = []).
Proof.
  destruct l as [|f l]; cbn [Derive.elements]; intros H; [inversion H; subst; tauto|].
  destruct (element f); [|discriminate]. destruct (elements l); [|discriminate]. inversion H; subst.
  split; discriminate.
Qed.

Lemma must_consume_run n p i r v : p_must_consume n p i = COk r v <-> p i = COk r v /\ List.length r <> List.length i.
Proof.
  unfold p_must_consume. destruct (p i) as [|r1 v1|e|e]; [intuition discriminate| |intuition discriminate|intuition discriminate].
  unfold same_len. destruct (Nat.eqb_spec (List.length r1) (List.length i)).
  - split; [discriminate|]. intros [E N]. inversion E; subst. contradiction.
  - split; [intros E; inversion E; subst; auto|]. intros [E N]. exact E.
Qed.

Definition fname (d : decl) (x : option variant) : string := node_name_of d x.

Lemma struct_run d x fs mc p : implement_struct d x fs mc = Parser p ->
  (d_tree d = TKSpanLeaf -> x = None) ->
  forall i r v, p i = COk r v <->
    exists vs, reads_all (fields_in fs) i r vs /\ v = value_of (d_tree d) (node_name_of d x) vs /\
               (mc = true -> List.length r <> List.length i).
Proof.
  unfold Derive.implement_struct. intros H Hleaf i r v.
  assert (V : forall vs, construct d x (VPass vs) = value_of (d_tree d) (node_name_of d x) vs).
  { intros vs. unfold construct, value_of. destruct (d_tree d); cbn [fields_of]; try reflexivity.
    rewrite (Hleaf eq_refl). reflexivity. }
  assert (K : forall l, match elements l with
      | None => Rejected
      | Some [] => if mc then Rejected else Parser (fun i => COk i (construct d x (VPass [])))
      | Some ps =>
          let inner := p_map (construct d x) (p_tuple ps) in
          Parser (if mc then p_must_consume (constructor_name x) inner else inner)
      end = Parser p -> p i = COk r v <->
      exists vs, reads_all l i r vs /\ v = value_of (d_tree d) (node_name_of d x) vs /\
               (mc = true -> List.length r <> List.length i)).
  { clear H. intros l H. destruct (elements l) as [ps|] eqn:E; [|discriminate].
    pose proof (elements_ok l ps E) as Hok.
    assert (M : forall j, p_map (construct d x) (p_tuple ps) j = COk r v <->
              exists vs, reads_all l j r vs /\ v = value_of (d_tree d) (node_name_of d x) vs).
    { intros j. unfold p_map. split.
      - destruct (p_tuple ps j) as [|r1 w|e|e] eqn:E1; try discriminate. intros E2. inversion E2; subst.
        apply Hok in E1 as (vs & -> & E1). exists vs. rewrite V. auto.
      - intros (vs & H1 & ->). assert (X : p_tuple ps j = COk r (VPass vs)) by (apply Hok; eauto).
        rewrite X, V. reflexivity. }
    destruct ps as [|q ps].
    - destruct mc; [discriminate|]. inversion H; subst. rewrite <- (M i) || idtac.
      pose proof (M i) as Mi. unfold p_map in Mi. cbn [p_tuple] in Mi. rewrite Mi.
      split; intros (vs & H1 & H2); [exists vs; intuition discriminate|destruct H2; eauto].
    - cbn zeta in H. inversion H; subst. destruct mc.
      + rewrite must_consume_run, M. split.
        * intros [(vs & H1 & H2) N]. exists vs. auto.
        * intros (vs & H1 & H2 & N). split; [eauto|auto].
      + rewrite M. split; intros (vs & H1 & H2); [exists vs; intuition discriminate|destruct H2; eauto]. }
  destruct fs as [l|l|]; [apply K; exact H|apply K; exact H|discriminate].
Qed.

(** ** Containers *)

Lemma after_run l : forall p i r v,
  fold_left (fun p t => p_not_after p (env t)) l p i = COk r v <->
  p i = COk r v /\ forall t, In t l -> exists e, env t r = CErr e.
Proof.
  induction l as [|t l IH]; intros p i r v; cbn [fold_left].
  - intuition. destruct H0.
  - rewrite IH. unfold p_not_after. split.
    + intros [H1 H2]. destruct (p i) as [|r1 v1|e|e]; try discriminate.
      destruct (env t r1) as [|r2 v2|e|e] eqn:E; try discriminate. inversion H1; subst. split; [reflexivity|].
      intros u [<-|Hu]; eauto.
    + intros [H1 H2]. rewrite H1. destruct (H2 t (or_introl eq_refl)) as (e & ->). split; [reflexivity|].
      intros u Hu. apply H2. right. exact Hu.
Qed.

Lemma post_run cs p i r v : check_post_conds conds cs p i = COk r v <->
  p i = COk r v /\ forall c, In c cs -> conds c v = true.
Proof.
  unfold check_post_conds. destruct (p i) as [|r1 v1|e|e]; [intuition discriminate| |intuition discriminate|intuition discriminate].
  destruct (forallb (fun c => conds c v1) cs) eqn:E.
  - rewrite forallb_forall in E. split; [intros H; inversion H; subst; auto|tauto].
  - split; [discriminate|]. intros [H1 H2]. inversion H1; subst.
    assert (X : forallb (fun c => conds c v) cs = true) by (apply forallb_forall; exact H2). congruence.
Qed.

(** what the container's attributes add to its inner parser *)
Lemma derive_run d p : derive_parse d = Parser p -> exists a q,
  container_of (d_attrs d) = Some a /\ implement_inner env withs container_with d a = Parser q /\
  forall i r v, p i = COk r v <-> q i = COk r v /\ container_holds env conds (d_attrs d) r v.
Proof.
  unfold Derive.derive_parse. destruct (container_of (d_attrs d)) as [a|] eqn:Ea; [|discriminate].
  destruct (implement_inner env withs container_with d a) as [| |q] eqn:Eq; try discriminate. intros H.
  exists a, q. split; [reflexivity|]. split; [exact Eq|]. intros i r v.
  destruct a as [an w pc lg mc]. apply container_spec in Ea as (H1 & H2 & H3 & H4 & H5).
  cbn [c_post_conds c_after_nots] in H. unfold container_holds.
  assert (P : forall q', (q' i = COk r v <-> q i = COk r v /\ forall c, In c pc -> conds c v = true) ->
     fold_left (fun p t => p_not_after p (env t)) an q' i = COk r v <->
     q i = COk r v /\ (forall c, In (APostCond c) (d_attrs d) -> conds c v = true) /\
     (forall t, In (ANotAfter t) (d_attrs d) -> exists e, env t r = CErr e)).
  { intros q' Hq'. rewrite after_run, Hq'. split.
    - intros [[A B] C]. split; [exact A|]. split; [intros c Hc; apply B, H3, Hc|intros t Ht; apply C, H1, Ht].
    - intros (A & B & C). split; [split; [exact A|intros c Hc; apply B, H3, Hc]|intros t Ht; apply C, H1, Ht]. }
  destruct pc as [|c pc].
  - inversion H; subst. apply P. split; [intros E; split; [exact E|intros c []]|intros [E _]; exact E].
  - destruct (longest_enum d _); [discriminate|]. inversion H; subst. apply P. apply post_run.
Qed.

Theorem struct_meaning d p fs :
  derive_parse d = Parser p -> d_data d = DStruct fs -> (forall w, ~ In (AWith w) (d_attrs d)) ->
  forall i r v, p i = COk r v <->
    exists vs, reads_all (fields_in fs) i r vs /\ v = value_of (d_tree d) (d_name d) vs /\
               (In ANonEmpty (d_attrs d) -> List.length r <> List.length i) /\
               container_holds env conds (d_attrs d) r v.
Proof.
  intros H Hd Hw i r v. apply derive_run in H as (a & q & Ea & Eq & Hp). rewrite Hp.
  unfold implement_inner in Eq. destruct a as [an w pc lg mc]. apply container_spec in Ea as (H1 & H2 & H3 & H4 & H5).
  cbn [c_with c_must_consume] in Eq.
  destruct w as [w|]; [exfalso; apply (Hw w); apply H2; reflexivity|]. rewrite Hd in Eq.
  rewrite (struct_run _ _ _ _ _ Eq (fun _ => eq_refl)). cbn [node_name_of].
  split.
  - intros [(vs & A & B & C) D]. exists vs. split; [exact A|]. split; [exact B|]. split; [|exact D].
    intros N. apply C. apply H5. exact N.
  - intros (vs & A & B & C & D). split; [|exact D]. exists vs. split; [exact A|]. split; [exact B|]. intros N. apply C. apply H5. exact N.
Qed.

(** ** Enums *)

Definition as_struct_parser (d : decl) (x : variant) (q : parser) : Prop :=
  derive_parse (as_struct d x) = Parser q.

(** equal up to the names in "consumed nothing" errors *)
Definition like (a b : parser) : Prop := forall i,
  match a i, b i with
  | COk r v, COk r' v' => r = r' /\ v = v'
  | CErr _, CErr _ => True
  | CFail e, CFail e' => e = e'
  | COut, COut => True
  | _, _ => False
  end.

Lemma like_refl p : like p p.
Proof. intros i. destruct (p i); auto. Qed.

Lemma struct_names d x fs mc p : d_tree d <> TKSpanLeaf ->
  implement_struct d (Some x) fs mc = Parser p ->
  exists q, implement_struct (as_struct d x) None fs mc = Parser q /\ like p q.
Proof.
  unfold Derive.implement_struct. intros Ht H.
  assert (V : forall w, construct d (Some x) w = construct (as_struct d x) None w).
  { intros w. unfold construct. cbn [d_tree as_struct]. destruct (d_tree d); [reflexivity|reflexivity|congruence]. }
  assert (K : forall l, match elements l with
      | None => Rejected
      | Some [] => if mc then Rejected else Parser (fun i => COk i (construct d (Some x) (VPass [])))
      | Some ps =>
          let inner := p_map (construct d (Some x)) (p_tuple ps) in
          Parser (if mc then p_must_consume (constructor_name (Some x)) inner else inner)
      end = Parser p -> exists q, match elements l with
      | None => Rejected
      | Some [] => if mc then Rejected else Parser (fun i => COk i (construct (as_struct d x) None (VPass [])))
      | Some ps =>
          let inner := p_map (construct (as_struct d x) None) (p_tuple ps) in
          Parser (if mc then p_must_consume (constructor_name None) inner else inner)
      end = Parser q /\ like p q).
  { clear H. intros l H. destruct (elements l) as [[|q ps]|]; [| |discriminate].
    - destruct mc; [discriminate|]. inversion H; subst. eexists. split; [reflexivity|].
      intros i. split; [reflexivity|apply V].
    - cbn zeta in H |- *. generalize dependent (p_tuple (q :: ps)). clear q ps. intros t H.
      eexists. split; [reflexivity|]. intros i.
      assert (E : p = if mc then p_must_consume (constructor_name (Some x)) (p_map (construct d (Some x)) t)
                      else p_map (construct d (Some x)) t) by congruence.
      rewrite E. destruct mc.
      + unfold p_must_consume, p_map. destruct (t i) as [|r v|e|e]; [exact I| |exact I|reflexivity].
        destruct (same_len r i); [exact I|]. split; [reflexivity|apply V].
      + unfold p_map. destruct (t i) as [|r v|e|e]; [exact I| |exact I|reflexivity].
        split; [reflexivity|apply V]. }
  destruct fs as [l|l|]; [apply K; exact H|apply K; exact H|discriminate].
Qed.

Lemma variant_container l mc : variant_attrs_of l = Some mc ->
  container_of l = Some (mkca [] None [] false mc).
Proof.
  unfold variant_attrs_of, container_of. generalize false at 1 3 as b. revert mc.
  induction l as [|a l IH]; intros mc b H; cbn [get_variant get_container] in *; [congruence|].
  destruct a; try discriminate. apply IH. exact H.
Qed.

Lemma branches_spec d vs : forall ps, d_tree d <> TKSpanLeaf -> branches d vs = Some ps ->
  Forall2 (fun x p => exists q, derive_parse (as_struct d x) = Parser q /\ like p q) vs ps.
Proof.
  induction vs as [|x vs IH]; intros ps Ht H; cbn [Derive.branches] in H.
  - inversion H; subst. constructor.
  - destruct (variant_attrs_of (v_attrs x)) as [mc|] eqn:Ev; [|discriminate].
    assert (X : v_fields x <> Unit /\ match implement_struct d (Some x) (v_fields x) mc, branches d vs with
          | Parser p, Some ps => Some (p :: ps)
          | _, _ => None
          end = Some ps).
    { destruct (v_fields x); [split; [discriminate|exact H]|split; [discriminate|exact H]|discriminate]. }
    clear H. destruct X as [Hu X].
    destruct (implement_struct d (Some x) (v_fields x) mc) as [| |p] eqn:Ep; try discriminate.
    destruct (branches d vs) as [ps'|] eqn:Eb; [|discriminate]. inversion X; subst.
    constructor; [|apply IH; [exact Ht|reflexivity]].
    destruct (struct_names _ _ _ _ _ Ht Ep) as (q & Eq & Hq). exists q. split; [|exact Hq].
    unfold Derive.derive_parse. cbn [d_attrs as_struct]. rewrite (variant_container _ _ Ev).
    unfold implement_inner. cbn [c_with c_must_consume d_data as_struct c_post_conds c_after_nots].
    change (mkdecl _ _ _ _ _) with (as_struct d x). rewrite Eq. reflexivity.
Qed.


Lemma alt_run ps : forall a i r v, p_alt a ps i = COk r v <->
  a i = COk r v \/ rejects a i /\ exists pre p post, ps = pre ++ p :: post /\ Forall (fun q => rejects q i) pre /\ p i = COk r v.
Proof.
  unfold p_alt. induction ps as [|p ps IH]; intros a i r v; cbn [fold_left].
  - split; [auto|]. intros [H|(_ & pre & q & post & E & _)]; [exact H|destruct pre; discriminate].
  - rewrite IH. unfold p_or at 1. split.
    + intros [H|[(e & H) H']].
      * destruct (a i) as [|r1 v1|e|e] eqn:Ea; try discriminate; [left; exact H|].
        right. split; [exists e; exact Ea|]. exists [], p, ps. split; [reflexivity|]. split; [constructor|].
        destruct (p i); try discriminate. exact H.
      * unfold p_or in H. destruct (a i) as [|r1 v1|e0|e0] eqn:Ea; try discriminate.
        destruct (p i) as [|r1 v1|e1|e1] eqn:Ep; try discriminate.
        right. split; [exists e0; exact Ea|]. destruct H' as (pre & q & post & -> & F & Hq).
        exists (p :: pre), q, post. split; [reflexivity|]. split; [|exact Hq]. constructor; [exists e1; exact Ep|exact F].
    + intros [H|[(e & H) (pre & q & post & E & F & Hq)]].
      * left. rewrite H. reflexivity.
      * rewrite H. destruct pre as [|p' pre]; inversion E; subst.
        -- left. rewrite Hq. reflexivity.
        -- inversion F as [|? ? (e' & He') F']; subst. right. split.
           { eexists. unfold p_or. rewrite H, He'. reflexivity. }
           exists pre, q, post. auto.
Qed.

Lemma alt_run_list p ps i r v : p_alt p ps i = COk r v <->
  exists pre q post, p :: ps = pre ++ q :: post /\ Forall (fun q => rejects q i) pre /\ q i = COk r v.
Proof.
  rewrite alt_run. split.
  - intros [H|[Hr (pre & q & post & -> & F & Hq)]].
    + exists [], p, ps. auto.
    + exists (p :: pre), q, post. auto.
  - intros (pre & q & post & E & F & Hq). destruct pre as [|p' pre]; inversion E; subst; [left; exact Hq|].
    inversion F; subst. right. split; [assumption|]. exists pre, q, post. auto.
Qed.

Lemma forall2_split {A B} (R : A -> B -> Prop) l m : Forall2 R l m -> forall pre q post, m = pre ++ q :: post ->
  exists pre' x post', l = pre' ++ x :: post' /\ Forall2 R pre' pre /\ R x q /\ Forall2 R post' post.
Proof.
  intros H pre q post ->. apply Forall2_app_inv_r in H as (l1 & l2 & H1 & H2 & ->).
  inversion H2; subst. exists l1, x, l. auto.
Qed.

Lemma forall2_split_l {A B} (R : A -> B -> Prop) l m : Forall2 R l m -> forall pre x post, l = pre ++ x :: post ->
  exists pre' q post', m = pre' ++ q :: post' /\ Forall2 R pre pre' /\ R x q /\ Forall2 R post post'.
Proof.
  intros H pre x post ->. apply Forall2_app_inv_l in H as (l1 & l2 & H1 & H2 & ->).
  inversion H2; subst. exists l1, y, l'. auto.
Qed.

Notation vrejects d i := (fun x => exists q, derive_parse (as_struct d x) = Parser q /\ rejects q i).

Lemma like_rejects p q i : like p q -> (rejects p i <-> rejects q i).
Proof.
  intros H. specialize (H i). unfold rejects. split; intros (e & E); rewrite E in H; destruct (q i), (p i); try contradiction; eauto.
Qed.

Lemma like_ok p q i r v : like p q -> (p i = COk r v <-> q i = COk r v).
Proof.
  intros H. specialize (H i). split; intros E; rewrite E in H; destruct (q i), (p i); try contradiction; try discriminate;
    destruct H; subst; congruence.
Qed.

Lemma rejects_all d i vs ps : Forall2 (fun x p => exists q, derive_parse (as_struct d x) = Parser q /\ like p q) vs ps ->
  (Forall (fun p => rejects p i) ps <-> Forall (vrejects d i) vs).
Proof.
  induction 1 as [|x p vs ps (q & Eq & Hq) H IH]; [split; constructor|].
  split; intros F; inversion F; subst; constructor; try (apply IH; assumption).
  - exists q. split; [exact Eq|]. apply (like_rejects p q i Hq). assumption.
  - destruct H2 as (q' & Eq' & Hq'). rewrite Eq in Eq'. inversion Eq'; subst. apply (like_rejects p q' i Hq). assumption.
Qed.

Theorem enum_meaning d p vs :
  derive_parse d = Parser p -> d_data d = DEnum vs -> d_tree d <> TKSpanLeaf ->
  (forall w, ~ In (AWith w) (d_attrs d)) -> ~ In ALongest (d_attrs d) ->
  forall i r v, p i = COk r v <->
    (exists pre x post, vs = pre ++ x :: post /\ Forall (vrejects d i) pre /\
       exists q, derive_parse (as_struct d x) = Parser q /\ q i = COk r v) /\
    (In ANonEmpty (d_attrs d) -> List.length r <> List.length i) /\
    container_holds env conds (d_attrs d) r v.
Proof.
  intros H Hd Ht Hw Hl i r v. apply derive_run in H as (a & q & Ea & Eq & Hp). rewrite Hp. clear Hp.
  unfold implement_inner in Eq. destruct a as [an w pc lg mc]. apply container_spec in Ea as (H1 & H2 & H3 & H4 & H5).
  cbn [c_with c_must_consume c_longest] in Eq.
  destruct w as [w|]; [exfalso; apply (Hw w); apply H2; reflexivity|]. rewrite Hd in Eq.
  destruct (branches d vs) as [[|p0 ps]|] eqn:Eb; try discriminate.
  destruct lg; [exfalso; apply Hl, H4; reflexivity|].
  pose proof (branches_spec d vs _ Ht Eb) as HB.
  assert (A : p_alt p0 ps i = COk r v <-> exists pre x post, vs = pre ++ x :: post /\ Forall (vrejects d i) pre /\
       exists q, derive_parse (as_struct d x) = Parser q /\ q i = COk r v).
  { rewrite alt_run_list. split.
    - intros (pre & q0 & post & E & F & Hq0). destruct (forall2_split _ _ _ HB _ _ _ E) as (pre' & x & post' & -> & F1 & (q1 & E1 & L1) & _).
      exists pre', x, post'. split; [reflexivity|]. split; [apply (rejects_all d i _ _ F1); exact F|].
      exists q1. split; [exact E1|]. apply (like_ok _ _ i r v L1). exact Hq0.
    - intros (pre & x & post & E & F & q0 & E0 & Hq0). destruct (forall2_split_l _ _ _ HB _ _ _ E) as (pre' & q1 & post' & -> & F1 & (q2 & E2 & L2) & _).
      rewrite E0 in E2. inversion E2; subst. exists pre', q1, post'. split; [reflexivity|].
      split; [apply (rejects_all d i _ _ F1); exact F|]. apply (like_ok _ _ i r v L2). exact Hq0. }
  inversion Eq; subst; clear Eq. destruct mc.
  - rewrite must_consume_run, A. split.
    + intros [[B C] D]. auto.
    + intros (B & C & D). repeat split; auto; try apply D. apply C, H5. reflexivity.
  - rewrite A. split.
    + intros [B D]. repeat split; auto; try apply D. intros N. apply H5 in N. discriminate.
    + intros (B & _ & D). auto.
Qed.
End Thms.

(** CstParts.v -- constructs of a context-free grammar as nodes of the tree. *)
From Verif Require Import Base Span Selmaho Lex Cst CstRules CstApi CstMeta CstTotal SpecCst CstTree CstBalance CstThms CstSimp SpecGen CstGen SpecGrammar SpecParts.
From Coq Require Import Lia Arith.

(** [P v pre u post]: [u] is somewhere in [v], with the leaves [pre] before and [post] after it *)
Definition is_node (u : val) : Prop := match u with VPass _ => False | _ => True end.
Inductive P : val -> list val -> val -> list val -> Prop :=
| P_here u : P u [] u []
| P_node nm a c b pre u post : P c pre u post -> P (VNode nm (a ++ c :: b)) (flat_map leaves a ++ pre) u (post ++ flat_map leaves b)
| P_pass a c b pre u post : P c pre u post -> P (VPass (a ++ c :: b)) (flat_map leaves a ++ pre) u (post ++ flat_map leaves b).

Lemma P_vcons_l v w pre u post : P v pre u post -> P (vcons v w) pre u (post ++ leaves w).
Proof. intros H. unfold vcons. rewrite <- (leaves_fields w). apply (P_pass [] v (fields_of w)), H. Qed.
Lemma P_vcons_r v w pre u post : P w pre u post -> is_node u -> P (vcons v w) (leaves v ++ pre) u post.
Proof.
  intros H Hu. unfold vcons. assert (D : fields_of w = [w] \/ exists l, w = VPass l) by (destruct w; eauto). destruct D as [->|(l & ->)].
  - replace (leaves v) with (flat_map leaves [v]) by (cbn; apply app_nil_r). replace post with (post ++ flat_map leaves []) by (cbn; apply app_nil_r). apply (P_pass [v] w []), H.
  - inversion H; subst; [destruct Hu|]. cbn [fields_of]. rewrite app_assoc. apply (P_pass (v :: a) c b). assumption.
Qed.
Lemma P_fields nm v pre u post : P v pre u post -> is_node u -> P (VNode nm (fields_of v)) pre u post.
Proof.
  intros H Hu. assert (D : fields_of v = [v] \/ exists l, v = VPass l) by (destruct v; eauto). destruct D as [->|(l & ->)].
  - replace pre with (flat_map leaves [] ++ pre) by reflexivity. replace post with (post ++ flat_map leaves []) by (cbn; apply app_nil_r). apply (P_node nm [] v []), H.
  - inversion H; subst; [destruct Hu|]. cbn [fields_of]. apply P_node. assumption.
Qed.
Lemma P_one v pre u post : P v pre u post -> P (VPass [v]) pre u post.
Proof. intros H. replace pre with (flat_map leaves [] ++ pre) by reflexivity. replace post with (post ++ flat_map leaves []) by (cbn; apply app_nil_r). apply (P_pass [] v []), H. Qed.

Ltac inv H := inversion H; subst; clear H.
Section MkV.
Context (tbl : cnt -> rx) (cf : cnt -> bool).
Notation X := (X tbl).
Notation V := (V tbl).
Lemma mk_seq_V a b i y j k : V (mk_seq cf a b) i y j k -> V a i y j k \/ exists i', X a i (Ok i') /\ V b i' y j k.
Proof.
  intros H. assert (D : mk_seq cf a b = XSeq a b \/ (a = XNil /\ mk_seq cf a b = b) \/ mk_seq cf a b = a \/ mk_seq cf a b = XFail \/ mk_seq cf a b = XBad).
  { destruct a; cbn [mk_seq]; auto; destruct b; auto; try (destruct (cutless cf _); auto). }
  destruct D as [D|[[-> D]|[D|[D|D]]]]; rewrite D in H.
  - inv H; eauto.
  - right. exists i. split; [constructor|exact H].
  - auto.
  - inv H.
  - inv H.
Qed.
Lemma mk_alt_V a b i y j k : V (mk_alt a b) i y j k -> (forall i', X a i (Ok i') -> V a i y j k) /\ (forall i', X a i Er -> X b i (Ok i') -> V b i y j k).
Proof.
  intros H. assert (D : mk_alt a b = XAlt a b \/ (a = XFail /\ mk_alt a b = b) \/ (mk_alt a b = a /\ (sure a = true \/ b = XFail)) \/ mk_alt a b = XBad).
  { unfold mk_alt. destruct (sure a) eqn:E; destruct a; auto; try discriminate; destruct b; auto 6. }
  destruct D as [D|[[-> D]|[[D D']|D]]]; rewrite D in H.
  - inv H; split; intros.
    + assumption.
    + match goal with A : X a i (Ok _), B : X a i Er |- _ => pose proof (X_det _ _ _ _ A _ B); discriminate end.
    + match goal with A : X a i (Ok _), B : X a i Er |- _ => pose proof (X_det _ _ _ _ A _ B); discriminate end.
    + assumption.
  - split; intros ? A; [inv A|intros; exact H].
  - split; [auto|]. intros i' A B. destruct D' as [D'| ->]; [destruct (sure_ok _ _ _ D' A)|inv B].
  - inv H.
Qed.
Lemma mk_opt_V a i y j k : V (mk_opt a) i y j k -> (exists i', X a i (Ok i')) /\ V a i y j k.
Proof. intros H. destruct a; cbn [mk_opt] in H; inv H; eauto. Qed.
Lemma mk_loop_V a i y j k : V (mk_loop a) i y j k -> exists i', X a i (Ok i') /\ List.length i' <> List.length i /\ (V a i y j k \/ V (mk_loop a) i' y j k).
Proof. intros H. destruct a; cbn [mk_loop] in *; inv H; eauto 8. Qed.
Lemma mk_nt_V p a i y j k : V (mk_nt cf p a) i y j k -> V a i y j k.
Proof.
  intros H. assert (D : mk_nt cf p a = XNotThen p a \/ mk_nt cf p a = a \/ mk_nt cf p a = XFail \/ mk_nt cf p a = XBad).
  { destruct p; cbn [mk_nt]; auto; destruct a; auto; destruct (cutless cf _); auto. }
  destruct D as [D|[D|[D|D]]]; rewrite D in H; [inv H; assumption|exact H|inv H|inv H].
Qed.
Lemma mk_na_V a p i y j k : V (mk_na cf a p) i y j k -> V a i y j k.
Proof.
  intros H. assert (D : mk_na cf a p = XNotAfter a p \/ mk_na cf a p = a \/ mk_na cf a p = XFail \/ mk_na cf a p = XBad).
  { destruct a; cbn [mk_na]; auto; destruct p; auto; destruct (cutless cf _); auto. }
  destruct D as [D|[D|[D|D]]]; rewrite D in H; [inv H; assumption|exact H|inv H|inv H].
Qed.
Lemma mk_co_V a i y j k : V (mk_co a) i y j k -> V a i y j k.
Proof. intros H. destruct a; cbn [mk_co] in H; inv H; assumption. Qed.
Lemma mk_cut_V a i y j k : V (mk_cut a) i y j k -> V a i y j k.
Proof. intros H. destruct a; cbn [mk_cut] in H; inv H; assumption. Qed.
Lemma mk_till_V f g i y j k : ~ V (mk_till f g) i y j k.
Proof. intros H. unfold mk_till in H. destruct f, g; inv H. Qed.
End MkV.

Section Seen.
Context (Sg : Selmaho -> bool) (st : cnt -> status) (cf : cnt -> bool).
Context (tbl : cnt -> rx) (Htbl : forall x, st x = SLive -> tbl x = residual Sg st cf x) (Hok : st_ok Sg st cf = true)
  (Hcf : forall x, cf x = true -> cutless cf (tbl x) = true).
Notation simp := (simp Sg st cf).
Notation over := (over Sg).
Notation X := (X tbl).
Notation V := (V tbl).

Definition seen (i r : list token) (v : val) (y : cnt) (j k : list token) : Prop :=
  exists n u, grun crule n (crule y) j = COk k u /\
    (is_node u -> exists pre post p q, P v pre u post /\ i = p ++ j /\ k = q ++ r /\ Forall2 shows pre p /\ Forall2 shows post q).

Lemma run_X n e i r v : over i -> simp e <> XBad -> grun crule n e i = COk r v -> X (simp e) i (Ok r).
Proof. intros Hi Hb E. pose proof (simp_agree Sg st cf tbl Htbl Hok Hcf n e i Hi Hb) as A. unfold agree in A. rewrite E in A. exact A. Qed.
Lemma run_X_er n e i x : over i -> simp e <> XBad -> grun crule n e i = CErr x -> X (simp e) i Er.
Proof. intros Hi Hb E. pose proof (simp_agree Sg st cf tbl Htbl Hok Hcf n e i Hi Hb) as A. unfold agree in A. rewrite E in A. exact A. Qed.
Lemma run_covers n e i r v : grun crule n e i = COk r v -> span_names e = true -> exists m, i = m ++ r /\ covers v m.
Proof. intros E Hs. apply run_derives in E as (m & -> & D). exists m. split; [reflexivity|]. eapply derives_covers; eassumption. Qed.

Lemma seen_weaken i r v v' y j k : (forall pre u post, is_node u -> P v pre u post -> P v' pre u post) -> seen i r v y j k -> seen i r v' y j k.
Proof. intros Hp (n & u & E & H). exists n, u. split; [exact E|]. intros Hu. destruct (H Hu) as (pre & post & p & q & A & B). exists pre, post, p, q. split; [apply Hp; assumption|exact B]. Qed.
Lemma seen_cons_l i r r' v w y j k m : seen i r v y j k -> r = m ++ r' -> covers w m -> seen i r' (vcons v w) y j k.
Proof.
  intros (n & u & E & H) -> Hc. exists n, u. split; [exact E|]. intros Hu. destruct (H Hu) as (pre & post & p & q & A & B & C & D1 & D2).
  exists pre, (post ++ leaves w), p, (q ++ m). split; [apply P_vcons_l, A|]. split; [exact B|]. split; [rewrite C, app_assoc; reflexivity|]. split; [exact D1|]. apply Forall2_app; assumption.
Qed.
Lemma seen_cons_r i i' r v w y j k m : seen i' r w y j k -> i = m ++ i' -> covers v m -> seen i r (vcons v w) y j k.
Proof.
  intros (n & u & E & H) -> Hc. exists n, u. split; [exact E|]. intros Hu. destruct (H Hu) as (pre & post & p & q & A & B & C & D1 & D2).
  exists (leaves v ++ pre), post, (m ++ p), q. split; [apply P_vcons_r; assumption|]. split; [rewrite B, app_assoc; reflexivity|]. split; [exact C|]. split; [|exact D2]. apply Forall2_app; assumption.
Qed.

Lemma run_seen n : forall e i r v y j k, over i -> simp e <> XBad -> span_names e = true -> grun crule n e i = COk r v -> V (simp e) i y j k -> seen i r v y j k.
Proof.
  induction n as [|n IH]; intros e i r v y j k Hi Hb Hs E HV; [discriminate|]. rewrite grun_S in E.
  destruct e as [s| |nm|z| |e es|a b|e|kk e|e|f g|p e|e p|e|nm e|c e|nm e]; cbn [gstep] in E; cbn [CstSimp.simp] in HV, Hb; cbn [span_names] in Hs;
    repeat match goal with H : _ && _ = true |- _ => apply andb_true_iff in H as [? ?] end.
  - destruct (Sg s); inv HV.
  - inv HV.
  - inv HV.
  - pose proof (st_valid Sg st cf Hok z) as Vz. destruct (st z) eqn:Ez; try (inv HV; fail). inv HV.
    + match goal with A : CstSimp.X _ (tbl y) _ (Ok k) |- _ => rewrite (Htbl y Ez) in A; pose proof (X_det _ _ _ _ A _ (run_X _ _ _ _ _ Hi Vz E)) as Ek end.
      injection Ek as ->. exists n, v. split; [exact E|]. intros Hu. exists [], [], [], []. repeat split; constructor.
    + match goal with A : CstGen.V _ (tbl z) _ _ _ _ |- _ => rewrite (Htbl z Ez) in A end. eapply IH; [exact Hi|exact Vz|apply span_names_rules|exact E|assumption].
  - inv HV.
  - destruct (grun crule n e i) as [|r1 v1|x|x] eqn:E1; try discriminate. destruct (grun crule n es r1) as [|r2 v2|x|x] eqn:E2; try discriminate. injection E as <- <-.
    pose proof (run_X _ _ _ _ _ Hi (mk_seq_bad_l cf _ _ Hb) E1) as X1. pose proof (mk_seq_bad tbl cf _ _ _ _ X1 Hb) as Hb2.
    destruct (run_covers _ _ _ _ _ E1 H) as (m1 & Em1 & C1). destruct (run_covers _ _ _ _ _ E2 H0) as (m2 & Em2 & C2).
    destruct (mk_seq_V _ _ _ _ _ _ _ _ HV) as [A|(i' & A & B)].
    + eapply seen_cons_l; [|exact Em2|exact C2]. eapply IH; [exact Hi|exact (mk_seq_bad_l cf _ _ Hb)|exact H|exact E1|exact A].
    + pose proof (X_det _ _ _ _ X1 _ A) as Ei. injection Ei as <-. eapply seen_cons_r; [|exact Em1|exact C1]. eapply IH; [exact (over_run Sg _ _ _ _ _ Hi E1)|exact Hb2|exact H0|exact E2|exact B].
  - destruct (mk_alt_V _ _ _ _ _ _ _ HV) as [Va Vb]. destruct (grun crule n a i) as [|r1 v1|x|x] eqn:E1; try discriminate.
    + injection E as <- <-. eapply IH; [exact Hi|exact (mk_alt_bad_l _ _ Hb)|exact H|exact E1|]. eapply Va. exact (run_X _ _ _ _ _ Hi (mk_alt_bad_l _ _ Hb) E1).
    + destruct (grun crule n b i) as [|r2 v2|x'|x'] eqn:E2; try discriminate. injection E as <- <-. pose proof (run_X_er _ _ _ _ Hi (mk_alt_bad_l _ _ Hb) E1) as Xa.
      pose proof (mk_alt_bad_r tbl _ _ _ Xa Hb) as Hb2. eapply IH; [exact Hi|exact Hb2|exact H0|exact E2|]. eapply Vb; [exact Xa|]. exact (run_X _ _ _ _ _ Hi Hb2 E2).
  - destruct (mk_opt_V _ _ _ _ _ _ HV) as [(i' & A) Va]. destruct (grun crule n e i) as [|r1 v1|x|x] eqn:E1; try discriminate; injection E as <- <-.
    + eapply seen_weaken; [intros; apply P_one; eassumption|]. eapply IH; [exact Hi|exact (mk_opt_bad _ Hb)|exact Hs|exact E1|exact Va].
    + pose proof (X_det _ _ _ _ A _ (run_X_er _ _ _ _ Hi (mk_opt_bad _ Hb) E1)). discriminate.
  - destruct (mk_loop_V _ _ _ _ _ _ HV) as (i' & A & L & D). destruct (grun crule n e i) as [|r1 v1|x|x] eqn:E1; try discriminate.
    + pose proof (run_X _ _ _ _ _ Hi (mk_loop_bad _ Hb) E1) as X1. pose proof (X_det _ _ _ _ X1 _ A) as Ei. injection Ei as <-.
      destruct (same_len r1 i); [discriminate|]. destruct (grun crule n (GLoop kk e) r1) as [|r2 v2|x|x] eqn:E2; try discriminate. injection E as <- <-.
      destruct (run_covers _ _ _ _ _ E1 Hs) as (m1 & Em1 & C1). destruct (run_covers _ (GLoop kk e) _ _ _ E2 Hs) as (m2 & Em2 & C2). destruct D as [D|D].
      * eapply seen_cons_l; [|exact Em2|exact C2]. eapply IH; [exact Hi|exact (mk_loop_bad _ Hb)|exact Hs|exact E1|exact D].
      * eapply seen_cons_r; [|exact Em1|exact C1]. eapply (IH (GLoop kk e)); [exact (over_run Sg _ _ _ _ _ Hi E1)|exact Hb|exact Hs|exact E2|exact D].
    + pose proof (X_det _ _ _ _ A _ (run_X_er _ _ _ _ Hi (mk_loop_bad _ Hb) E1)). discriminate.
  - destruct (grun crule n e i) as [|r1 v1|x|x] eqn:E1; try discriminate. destruct (grun crule n (GLoop KMany1 e) r1) as [|r2 v2|x|x] eqn:E2; try discriminate. injection E as <- <-.
    pose proof (run_X _ _ _ _ _ Hi (mk_seq_bad_l cf _ _ Hb) E1) as X1. pose proof (mk_seq_bad tbl cf _ _ _ _ X1 Hb) as Hb2.
    destruct (run_covers _ _ _ _ _ E1 Hs) as (m1 & Em1 & C1). destruct (run_covers _ (GLoop KMany1 e) _ _ _ E2 Hs) as (m2 & Em2 & C2).
    destruct (mk_seq_V _ _ _ _ _ _ _ _ HV) as [A|(i' & A & B)].
    + eapply seen_cons_l; [|exact Em2|exact C2]. eapply IH; [exact Hi|exact (mk_seq_bad_l cf _ _ Hb)|exact Hs|exact E1|exact A].
    + pose proof (X_det _ _ _ _ X1 _ A) as Ei. injection Ei as <-. eapply seen_cons_r; [|exact Em1|exact C1]. eapply (IH (GLoop KMany1 e)); [exact (over_run Sg _ _ _ _ _ Hi E1)|exact Hb2|exact Hs|exact E2|exact B].
  - destruct (mk_till_V _ _ _ _ _ _ _ HV).
  - apply mk_nt_V in HV. destruct (grun crule n p i) as [|r1 v1|x|x] eqn:E1; try discriminate.
    eapply IH; [exact Hi|eapply mk_nt_bad; [exact (run_X_er _ _ _ _ Hi (mk_nt_bad_l cf _ _ Hb) E1)|exact Hb]|assumption|exact E|exact HV].
  - apply mk_na_V in HV. destruct (grun crule n e i) as [|r1 v1|x|x] eqn:E1; try discriminate. destruct (grun crule n p r1) as [|r2 v2|x|x] eqn:E2; try discriminate. injection E as <- <-.
    eapply IH; [exact Hi|exact (mk_na_bad_l cf _ _ Hb)|assumption|exact E1|exact HV].
  - apply mk_cut_V in HV. destruct (grun crule n e i) as [|r1 v1|x|x] eqn:E1; try discriminate. injection E as <- <-. eapply IH; [exact Hi|exact (mk_cut_bad _ Hb)|exact Hs|exact E1|exact HV].
  - apply mk_co_V in HV. destruct (grun crule n e i) as [|r1 v1|x|x] eqn:E1; try discriminate. destruct (same_len r1 i); [discriminate|]. injection E as <- <-.
    eapply IH; [exact Hi|exact (mk_co_bad _ Hb)|exact Hs|exact E1|exact HV].
  - destruct (grun crule n e i) as [|r1 v1|x|x] eqn:E1; try discriminate. destruct (holds c v1) eqn:Eh; [|discriminate]. injection E as <- <-. destruct c as [|l].
    + destruct (some_node e); [|inv HV]. apply mk_co_V in HV. eapply IH; [exact Hi|exact (mk_co_bad _ Hb)|exact Hs|exact E1|exact HV].
    + exfalso. destruct e as [| | | | | | | | | | | | | | | |nm e]; try (inv HV; fail). destruct e as [| | | | |e es| | | | | | | | | | |]; try (inv HV; fail).
      destruct e; try (inv HV; fail). destruct es; inv HV.
  - destruct (grun crule n e i) as [|r1 v1|x|x] eqn:E1; try discriminate. injection E as <- <-.
    eapply seen_weaken; [intros; apply P_fields; eassumption|]. eapply IH; [exact Hi|exact Hb|exact Hs|exact E1|exact HV].
Qed.
End Seen.

(** * From placements to the traversal *)
Lemma leaves_stand a p : Forall2 shows (flat_map leaves a) p -> exists pa, Forall2 stands_for (flat_map invoke_with_self a) pa /\ p = List.concat pa.
Proof.
  intros H. replace (flat_map leaves a) with (flat_map leaves (flat_map invoke_with_self a)) in H.
  2: { clear. induction a as [|x a IH]; [reflexivity|]. cbn [flat_map]. rewrite flat_map_app, leaves_invoke, IH. reflexivity. }
  revert p H. induction (flat_map invoke_with_self a) as [|c cs IH]; intros p H; cbn [flat_map] in H.
  - inv H. exists []. split; [constructor|reflexivity].
  - apply Forall2_app_inv_l in H as (m1 & m2 & H1 & H2 & ->). apply IH in H2 as (ms & F & ->). exists (m1 :: ms). split; [constructor; [apply covers_stands, H1|exact F]|reflexivity].
Qed.
Lemma P_part v pre u post : P v pre u post -> is_node u -> forall p m q, Forall2 shows pre p -> covers u m -> Forall2 shows post q ->
  exists a c b pa pb p' q', invoke_with_self v = a ++ c :: b /\ Forall2 stands_for a pa /\ Forall2 stands_for b pb /\ part_of c p' u m q' /\
    p = List.concat pa ++ p' /\ q = q' ++ List.concat pb.
Proof.
  assert (K : forall a c b pre post u, is_node u -> (forall p m q, Forall2 shows pre p -> covers u m -> Forall2 shows post q ->
     exists a c0 b pa pb p' q', invoke_with_self c = a ++ c0 :: b /\ Forall2 stands_for a pa /\ Forall2 stands_for b pb /\ part_of c0 p' u m q' /\
      p = List.concat pa ++ p' /\ q = q' ++ List.concat pb) ->
     forall p m q, Forall2 shows (flat_map leaves a ++ pre) p -> covers u m -> Forall2 shows (post ++ flat_map leaves b) q ->
     exists a0 c0 b0 pa pb p' q', flat_map invoke_with_self (a ++ c :: b) = a0 ++ c0 :: b0 /\ Forall2 stands_for a0 pa /\ Forall2 stands_for b0 pb /\ part_of c0 p' u m q' /\
      p = List.concat pa ++ p' /\ q = q' ++ List.concat pb).
  { intros a c b pre0 post0 u0 Hu IH p m q Hp Hm Hq. apply Forall2_app_inv_l in Hp as (p1 & p2 & Hp1 & Hp2 & ->). apply Forall2_app_inv_l in Hq as (q1 & q2 & Hq1 & Hq2 & ->).
    destruct (IH _ _ _ Hp2 Hm Hq1) as (a0 & c0 & b0 & pa & pb & p' & q' & E & Fa & Fb & HP & -> & ->).
    apply leaves_stand in Hp1 as (pa1 & Fa1 & ->), Hq2 as (pb2 & Fb2 & ->).
    exists (flat_map invoke_with_self a ++ a0), c0, (b0 ++ flat_map invoke_with_self b), (pa1 ++ pa), (pb ++ pb2), p', q'.
    repeat split; try (apply Forall2_app; assumption); [|exact HP| |].
    - rewrite flat_map_app. cbn [flat_map]. rewrite E, <- !app_assoc. reflexivity.
    - rewrite concat_app, app_assoc. reflexivity.
    - rewrite concat_app, app_assoc. reflexivity. }
  induction 1 as [u|nm a c b pre u post H IH|a c b pre u post H IH]; intros Hu p m q Hp Hm Hq.
  - inv Hp. inv Hq. exists [], u, [], [], [], [], []. repeat split; try constructor; [destruct u; [reflexivity|reflexivity|reflexivity|destruct Hu]|apply covers_stands, Hm].
  - destruct (K _ _ _ _ _ _ Hu (IH Hu) _ _ _ Hp Hm Hq) as (a0 & c0 & b0 & pa & pb & p' & q' & E & Fa & Fb & HP & -> & ->).
    exists [], (VNode nm (a ++ c :: b)), [], [], [], (List.concat pa ++ p'), (q' ++ List.concat pb). repeat split; try constructor; [|symmetry; apply app_nil_r].
    eapply part_child; [cbn [children]; exact E|exact Fa|exact Fb|exact HP].
  - cbn [invoke_with_self]. eapply K; eauto.
Qed.
Lemma P_part_node v pre u post p m q : P v pre u post -> is_node v -> is_node u -> Forall2 shows pre p -> covers u m -> Forall2 shows post q -> part_of v p u m q.
Proof.
  intros H Hv Hu Hp Hm Hq. destruct (P_part _ _ _ _ H Hu _ _ _ Hp Hm Hq) as (a & c & b & pa & pb & p' & q' & E & Fa & Fb & HP & -> & ->).
  replace (invoke_with_self v) with [v] in E by (destruct v; [reflexivity|reflexivity|reflexivity|destruct Hv]).
  destruct a as [|x a]; [|injection E as _ E; destruct a; discriminate]. injection E as <- <-. inv Fa. inv Fb. cbn [List.concat app]. rewrite app_nil_r. exact HP.
Qed.

(** * Names of nodes *)
Fixpoint head (n : nat) (e : gexp cnt) : option (list string) :=
  match n with O => None | S n =>
  match e with
  | GNode nm _ => Some [nm]
  | GAlt a b => match head n a, head n b with Some x, Some y => Some (x ++ y) | _, _ => None end
  | GNotThen _ e | GNotAfter e _ | GCut e | GConsume _ e | GPost _ e => head n e
  | GCall x => head n (crule x)
  | _ => None
  end end.
Lemma head_ok k : forall n e i r u l, grun crule k e i = COk r u -> head n e = Some l -> exists nm fs, u = VNode nm fs /\ In nm l.
Proof.
  induction k as [|k IH]; intros n e i r u l E Hh; [discriminate|]. destruct n as [|n]; [discriminate|]. rewrite grun_S in E. cbn [head] in Hh.
  destruct e as [s| |nm|z| |e es|a b|e|kk e|e|f g|p e|e p|e|nm e|c e|nm e]; try discriminate; cbn [gstep] in E.
  - eapply IH; eassumption.
  - destruct (head n a) as [x|] eqn:Ha; [|discriminate]. destruct (head n b) as [y|] eqn:Hb; [|discriminate]. injection Hh as <-.
    destruct (grun crule k a i) as [|r1 v1|x1|x1] eqn:E1; try discriminate.
    + injection E as <- <-. destruct (IH _ _ _ _ _ _ E1 Ha) as (nm & fs & -> & Hi). exists nm, fs. split; [reflexivity|apply in_or_app; auto].
    + destruct (grun crule k b i) as [|r2 v2|x'|x'] eqn:E2; try discriminate. injection E as <- <-.
      destruct (IH _ _ _ _ _ _ E2 Hb) as (nm & fs & -> & Hi). exists nm, fs. split; [reflexivity|apply in_or_app; auto].
  - destruct (grun crule k p i) as [|r1 v1|x|x] eqn:E1; try discriminate. eapply IH; eassumption.
  - destruct (grun crule k e i) as [|r1 v1|x|x] eqn:E1; try discriminate. destruct (grun crule k p r1) as [|r2 v2|x|x] eqn:E2; try discriminate. injection E as <- <-. eapply IH; eassumption.
  - destruct (grun crule k e i) as [|r1 v1|x|x] eqn:E1; try discriminate. injection E as <- <-. eapply IH; eassumption.
  - destruct (grun crule k e i) as [|r1 v1|x|x] eqn:E1; try discriminate. destruct (same_len r1 i); [discriminate|]. injection E as <- <-. eapply IH; eassumption.
  - destruct (grun crule k e i) as [|r1 v1|x|x] eqn:E1; try discriminate. destruct (holds c v1); [|discriminate]. injection E as <- <-. eapply IH; eassumption.
  - destruct (grun crule k e i) as [|r1 v1|x|x] eqn:E1; try discriminate. injection E as <- <-. injection Hh as <-. eexists _, _. split; [reflexivity|left; reflexivity].
Qed.
Definition has_kind (k nm : string) : bool := (String.eqb nm k || String.prefix (k ++ "::") nm)%string.
Lemma prefix_append a : forall b, String.prefix a b = true -> exists c, b = (a ++ c)%string.
Proof.
  induction a as [|x a IH]; intros b H; [exists b; reflexivity|]. destruct b as [|y b]; [discriminate|]. cbn [String.prefix] in H.
  destruct (Ascii.ascii_dec x y) as [->|]; [|discriminate]. apply IH in H as (c & ->). exists c. reflexivity.
Qed.
Lemma append_assoc (a b c : string) : ((a ++ b) ++ c = a ++ (b ++ c))%string.
Proof. induction a as [|x a IH]; [reflexivity|]. cbn. rewrite IH. reflexivity. Qed.
Lemma has_kind_ok k nm fs : has_kind k nm = true -> of_kind (VNode nm fs) k.
Proof.
  intros H. apply orb_true_iff in H as [H|H]; [left; apply String.eqb_eq, H|right]. apply prefix_append in H as (c & ->). exists c. cbn [node_name]. rewrite append_assoc. reflexivity.
Qed.

(** * Nodes do not cross *)
Lemma stands_length v : forall m m', stands_for v m -> stands_for v m' -> List.length m = List.length m'.
Proof.
  remember (CstTree.size v) as n eqn:E. revert v E. induction n as [n IH] using lt_wf_ind. intros v -> m m' H H'. inversion H as [v0 t Hc Hs|v0 parts Hn HF]; subst; inversion H' as [v1 t' Hc' Hs'|v1 parts' Hn' HF']; subst.
  - reflexivity.
  - exfalso. eauto.
  - exfalso. eauto.
  - assert (Hs : forall c, In c (children v) -> (CstTree.size c < CstTree.size v)%nat) by apply child_size. clear H H' Hn Hn'. revert Hs parts' HF'.
    induction HF as [|c x cs xs Hc HF IHF]; intros Hs parts' HF'; inversion HF'; subst; [reflexivity|].
    cbn [List.concat]. rewrite !app_length. f_equal; [eapply IH; [apply Hs; left; reflexivity|reflexivity|eassumption|eassumption]|]. apply IHF; [intros; apply Hs; right; assumption|assumption].
Qed.
Lemma stand_lengths l : forall a b, Forall2 stands_for l a -> Forall2 stands_for l b -> List.length (List.concat a) = List.length (List.concat b).
Proof.
  induction l as [|v l IH]; intros a b Ha Hb; inv Ha; inv Hb; [reflexivity|]. cbn [List.concat]. rewrite !app_length. f_equal; [eapply stands_length; eassumption|auto].
Qed.
Lemma part_stands v p u m q : part_of v p u m q -> stands_for u m.
Proof. induction 1; auto. Qed.
Lemma split_two {A} (a1 : list A) : forall c1 b1 a2 c2 b2, a1 ++ c1 :: b1 = a2 ++ c2 :: b2 ->
  (a1 = a2 /\ c1 = c2 /\ b1 = b2) \/ (exists x, a2 = a1 ++ c1 :: x /\ b1 = x ++ c2 :: b2) \/ (exists x, a1 = a2 ++ c2 :: x /\ b2 = x ++ c1 :: b1).
Proof.
  induction a1 as [|y a1 IH]; intros c1 b1 a2 c2 b2 E; destruct a2 as [|z a2]; cbn [app] in E; injection E as E1 E2; subst.
  - auto.
  - right; left. exists a2. auto.
  - right; right. exists a1. auto.
  - apply IH in E2 as [(-> & -> & ->)|[(x & -> & ->)|(x & -> & ->)]]; [auto|right; left; exists x; auto|right; right; exists x; auto].
Qed.
Lemma part_length v p u m q : part_of v p u m q -> exists m', stands_for v m' /\ List.length (p ++ m ++ q) = List.length m'.
Proof.
  induction 1 as [u m H|v a c b pa pb p u m q E Fa Fb HP (m' & S & L)].
  - exists m. rewrite app_nil_r. auto.
  - exists (List.concat (pa ++ m' :: pb)). split.
    + constructor; [|rewrite E; apply Forall2_app; [exact Fa|constructor; assumption]]. intros (t & Ht). destruct (shows_start _ _ Ht) as (_ & _ & C & _). rewrite C in E. destruct a; discriminate.
    + rewrite concat_app. cbn [List.concat]. rewrite !app_length in *. lia.
Qed.
Definition len_within (p1 q1 p2 q2 : list token) : Prop := (List.length p2 <= List.length p1)%nat /\ (List.length q2 <= List.length q1)%nat.
Lemma parts_laminar v p1 u1 m1 q1 : part_of v p1 u1 m1 q1 -> forall p2 u2 m2 q2, part_of v p2 u2 m2 q2 ->
  len_within p1 q1 p2 q2 \/ len_within p2 q2 p1 q1 \/ (List.length p1 + List.length m1 <= List.length p2)%nat \/ (List.length p2 + List.length m2 <= List.length p1)%nat.
Proof.
  unfold len_within. induction 1 as [u1 m1 S1|v a1 c1 b1 pa1 pb1 p1 u1 m1 q1 E1 Fa1 Fb1 HP1 IH]; intros p2 u2 m2 q2 H2.
  - right; left. cbn; lia.
  - inversion H2 as [u2' m2' S2|v' a2 c2 b2 pa2 pb2 p2' u2' m2' q2' E2 Fa2 Fb2 HP2]; subst; [left; cbn; lia|].
    rewrite E1 in E2. apply split_two in E2 as [(<- & <- & <-)|[(x & -> & ->)|(x & -> & ->)]].
    + pose proof (stand_lengths _ _ _ Fa1 Fa2) as La. pose proof (stand_lengths _ _ _ Fb1 Fb2) as Lb. specialize (IH _ _ _ _ HP2). rewrite !app_length. lia.
    + apply Forall2_app_inv_l in Fa2 as (l1 & l2 & Fa2 & Fc & ->). inversion Fc as [|? y ? l3 Sc Fx]; subst. pose proof (stand_lengths _ _ _ Fa1 Fa2) as La.
      destruct (part_length _ _ _ _ _ HP1) as (m' & S' & L). pose proof (stands_length _ _ _ Sc S') as Ly. right; right; left. rewrite concat_app in *. cbn [List.concat] in *. rewrite !app_length in *. lia.
    + apply Forall2_app_inv_l in Fa1 as (l1 & l2 & Fa1 & Fc & ->). inversion Fc as [|? y ? l3 Sc Fx]; subst. pose proof (stand_lengths _ _ _ Fa1 Fa2) as La.
      destruct (part_length _ _ _ _ _ HP2) as (m' & S' & L). pose proof (stands_length _ _ _ Sc S') as Ly. right; right; right. rewrite concat_app in *. cbn [List.concat] in *. rewrite !app_length in *. lia.
Qed.

Lemma app_split_le {A} (p1 : list A) : forall x1 p2 x2, p1 ++ x1 = p2 ++ x2 -> (List.length p2 <= List.length p1)%nat -> exists y, p1 = p2 ++ y /\ x2 = y ++ x1.
Proof.
  induction p1 as [|a p1 IH]; intros x1 p2 x2 E L; destruct p2 as [|b p2]; cbn in L; try lia.
  - exists []. auto.
  - exists (a :: p1). split; [reflexivity|symmetry; exact E].
  - cbn [app] in E. injection E as -> E. destruct (IH _ _ _ E) as (y & -> & ->); [lia|]. exists y. auto.
Qed.
Lemma within_len (p1 m1 q1 p2 m2 q2 : list token) : p1 ++ m1 ++ q1 = p2 ++ m2 ++ q2 -> len_within p1 q1 p2 q2 -> within p1 m1 q1 p2 m2 q2.
Proof.
  intros E [L1 L2]. destruct (app_split_le _ _ _ _ E L1) as (x & -> & E2). rewrite !app_assoc in E2. assert (L : (List.length (x ++ m1) <= List.length m2)%nat).
  { apply (f_equal (@List.length _)) in E2. rewrite !app_length in *. lia. }
  destruct (app_split_le _ _ _ _ E2 L) as (y & -> & ->). exists x, y. rewrite <- app_assoc. auto.
Qed.
Lemma before_len (p1 m1 q1 p2 m2 q2 : list token) : p1 ++ m1 ++ q1 = p2 ++ m2 ++ q2 -> (List.length p1 + List.length m1 <= List.length p2)%nat -> before p1 m1 q1 p2 m2 q2.
Proof.
  intros E L. rewrite app_assoc in E. symmetry in E. destruct (app_split_le _ _ _ _ E) as (x & -> & ->); [rewrite app_length; lia|]. exists x. rewrite <- app_assoc. auto.
Qed.
Lemma no_crossing_parts v p1 u1 m1 q1 p2 u2 m2 q2 : part_of v p1 u1 m1 q1 -> part_of v p2 u2 m2 q2 -> p1 ++ m1 ++ q1 = p2 ++ m2 ++ q2 -> no_crossing p1 m1 q1 p2 m2 q2.
Proof.
  intros H1 H2 E. unfold no_crossing. destruct (parts_laminar _ _ _ _ _ H1 _ _ _ _ H2) as [L|[L|[L|L]]]; auto 6 using within_len, before_len.
Qed.

(** Props_Parts.v -- C67: the tree of a text groups it as the grammar of SpecGrammar.v does.
    Vocabulary: SpecCst.v, SpecGen.v, SpecGrammar.v, SpecParts.v. *)
From Verif Require Import Base Span Selmaho Lex SpecText SpecLex Cst CstRules CstApi SpecCst SpecFragment SpecGen SpecGrammar SpecParts CstMeta CstTotal CstTree CstBalance CstThms.
From Verif Require Import CstSimp Props_Fragment CstGen CstGrammar CstParts Props_Grammar.
From Coq Require Import Lia Arith.
Import Datatypes.

Definition kinds_ok : bool := forallb (fun a => match kind a with
  | Some k => P_whole a && match head 30 (GCall (P_xc a)) with Some l => forallb (has_kind k) l | None => false end
  | None => true end) all_parts.
Lemma kinds_checked : kinds_ok = true.
Proof. vm_cast_no_check (eq_refl true). Qed.
Lemma kind_checked a k : kind a = Some k -> P_whole a = true /\ exists l, head 30 (GCall (P_xc a)) = Some l /\ forall nm, In nm l -> has_kind k nm = true.
Proof.
  intros E. pose proof kinds_checked as H. unfold kinds_ok in H. rewrite forallb_forall in H. specialize (H a (all_parts_complete a)). rewrite E in H.
  apply andb_true_iff in H as [H1 H2]. split; [exact H1|]. destruct (head 30 (GCall (P_xc a))) as [l|]; [|discriminate]. exists l. split; [reflexivity|]. apply forallb_forall, H2.
Qed.
Lemma phrase_gens {nt} (prods : nt -> list (list (sym nt))) w a pre m post : phrase prods w a pre m post -> gens prods w (pre ++ m ++ post).
Proof.
  induction 1; cbn [app].
  - econstructor; eassumption.
  - replace (pre ++ m ++ post ++ m') with ((pre ++ m ++ post) ++ m') by (rewrite <- !app_assoc; reflexivity). econstructor; eassumption.
  - constructor; assumption.
  - rewrite <- app_assoc. econstructor; eassumption.
Qed.

Lemma parse_run toks root : cst_parse toks = Ret (inl root) -> exists k, grun crule k al_Root toks = COk [] root.
Proof. unfold cst_parse. generalize (cst_fuel toks). intros k H. exists k. revert H. generalize (grun crule k al_Root toks). intros [|[|t r] v|e|e] H; try discriminate. injection H as ->. reflexivity. Qed.

(** * C67 Constructs of the grammar are nodes of the tree *)

(** Wherever a construct of the grammar occurs in a text, the tree has a node of the right kind that shows exactly its tokens. *)
Theorem C67_grouped a k pre m post : phrase productions [Part Text] a pre m post -> kind a = Some k ->
  exists root u, cst_parse (pre ++ m ++ post) = Ret (inl root) /\ part_of root pre u m post /\ of_kind u k.
Proof.
  intros Hp Hk. destruct (kind_checked _ _ Hk) as (Hw & l & Hl & Hn). pose proof (phrase_gens _ _ _ _ _ _ Hp) as G.
  assert (Ho : Forall (fun t => P_sg (selmaho t) = true) (pre ++ m ++ post)) by (eapply generated_words; [exact G|reflexivity]).
  destruct (C65_generated _ G) as (root & Hr). exists root.
  pose proof (visited _ _ _ _ Hp Hw) as HV. pose proof P_ok as Hok. rewrite P_rx_table in HV. rewrite P_rx_table in Hok.
  unfold table_ok in Hok. apply andb_true_iff in Hok as [Hok H3]. apply andb_true_iff in Hok as [H1 H2].
  assert (Hcf : forall x, cf_of P_st x = true -> cutless (cf_of P_st) (rx_of (rx_table P_sg P_st) x) = true).
  { intros x Hx. rewrite forallb_forall in H2. specialize (H2 x (all_cnts_complete x)). rewrite Hx in H2. exact H2. }
  assert (Ht : forall x, st_of P_st x = SLive -> rx_of (rx_table P_sg P_st) x = residual P_sg (st_of P_st) (cf_of P_st) x) by (intros; apply rx_table_ok).
  destruct (parse_run _ _ Hr) as (k0 & Eg).
  assert (Es : simp P_sg (st_of P_st) (cf_of P_st) al_Root = XCall G_Text) by (rewrite P_root_ok; reflexivity).
  pose proof (run_seen P_sg (st_of P_st) (cf_of P_st) _ Ht H1 Hcf k0 al_Root (pre ++ m ++ post) [] root (P_xc a) (m ++ post) post Ho) as S. rewrite Es in S.
  destruct (S ltac:(discriminate) eq_refl Eg HV) as (n & u & Eu & Hu).
  assert (Eu' : grun crule (Datatypes.S n) (GCall (P_xc a)) (m ++ post) = COk post u) by (rewrite grun_S; exact Eu).
  destruct (head_ok _ _ _ _ _ _ _ Eu' Hl) as (nm & fs & -> & Hnm). exists (VNode nm fs). split; [exact Hr|]. split; [|apply has_kind_ok, Hn, Hnm].
  destruct (Hu I) as (lp & lq & p & q & HP & Ep & Eq & Fp & Fq). apply app_inv_tail in Ep as <-. rewrite app_nil_r in Eq. subst q.
  destruct (run_covers _ _ _ _ _ Eu (span_names_rules _)) as (m' & Em & Cm). apply app_inv_tail in Em as <-.
  assert (Hroot : exists nm fs, root = VNode nm fs).
  { destruct (head_ok _ 30 al_Root _ _ _ ["Text"%string] Eg eq_refl) as (nm' & fs' & -> & _). eauto. }
  destruct Hroot as (nm' & fs' & ->). eapply P_part_node; [exact HP|exact I|exact I|exact Fp|exact Cm|exact Fq].
Qed.
Print Assumptions C67_grouped.

(** Hence no two constructs of a text cross, in one derivation or in two: the grammar groups every text in only one way,
    and no node of the tree crosses a construct. *)
Theorem C67_no_crossing_node a k pre m post root p u n q : phrase productions [Part Text] a pre m post -> kind a = Some k ->
  cst_parse (pre ++ m ++ post) = Ret (inl root) -> part_of root p u n q -> p ++ n ++ q = pre ++ m ++ post -> no_crossing pre m post p n q.
Proof.
  intros Hp Hk Hr H E. destruct (C67_grouped _ _ _ _ _ Hp Hk) as (root' & u' & Hr' & H' & _). rewrite Hr in Hr'. injection Hr' as <-.
  eapply no_crossing_parts; [exact H'|exact H|symmetry; exact E].
Qed.
Print Assumptions C67_no_crossing_node.

Theorem C67_unambiguous a1 k1 p1 m1 q1 a2 k2 p2 m2 q2 : phrase productions [Part Text] a1 p1 m1 q1 -> kind a1 = Some k1 ->
  phrase productions [Part Text] a2 p2 m2 q2 -> kind a2 = Some k2 -> p1 ++ m1 ++ q1 = p2 ++ m2 ++ q2 -> no_crossing p1 m1 q1 p2 m2 q2.
Proof.
  intros H1 K1 H2 K2 E. destruct (C67_grouped _ _ _ _ _ H2 K2) as (root & u & Hr & H & _). rewrite <- E in Hr.
  eapply C67_no_crossing_node; [exact H1|exact K1|exact Hr|exact H|symmetry; exact E].
Qed.
Print Assumptions C67_unambiguous.

(** * Examples *)
Lemma phrase_app {nt} (prods : nt -> list (list (sym nt))) p : forall w a pre m post, phrase prods (p ++ w) a pre m post ->
  (exists post1 post2, post = post1 ++ post2 /\ phrase prods p a pre m post1 /\ gens prods w post2) \/
  (exists pre1 pre2, pre = pre1 ++ pre2 /\ gens prods p pre1 /\ phrase prods w a pre2 m post).
Proof.
  assert (Gs : forall w1 w2 m, gens prods (w1 ++ w2) m -> exists m1 m2, m = m1 ++ m2 /\ gens prods w1 m1 /\ gens prods w2 m2).
  { induction w1 as [|[s|a] w1 IH]; intros w2 m H; cbn [app] in H.
    - exists [], m. repeat split; [constructor|exact H].
    - inversion H as [|s0 t w m' E G|]; subst. destruct (IH _ _ G) as (m1 & m2 & -> & A & B). exists (t :: m1), m2. repeat split; [constructor; auto|exact B].
    - inversion H as [| |a0 p0 w m1' m2' Hp G1 G2]; subst. destruct (IH _ _ G2) as (m1 & m2 & -> & A & B). exists (m1' ++ m1), m2. repeat split; [rewrite app_assoc; reflexivity|econstructor; eauto|exact B]. }
  induction p as [|x p IH]; intros w a pre m post H; cbn [app] in H.
  - right. exists [], pre. repeat split; [constructor|exact H].
  - inversion H as [a' p' w' m0 m' Hp G1 G2|a' b p' w' pre0 m0 post0 m' Hp G1 G2|s t b w' pre0 m0 post0 E G|a' b p' w' m' pre0 m0 post0 Hp G1 G2]; subst.
    + apply Gs in G2 as (x1 & x2 & -> & A & B). left. exists x1, x2. repeat split; [eapply phrase_here; eauto|exact B].
    + apply Gs in G2 as (x1 & x2 & -> & A & B). left. exists (post0 ++ x1), x2. repeat split; [rewrite app_assoc; reflexivity|eapply phrase_in; eauto|exact B].
    + apply IH in G as [(x1 & x2 & -> & A & B)|(x1 & x2 & -> & A & B)]; [left; exists x1, x2|right; exists (t :: x1), x2]; repeat split; try assumption; constructor; auto.
    + apply IH in G2 as [(x1 & x2 & -> & A & B)|(x1 & x2 & -> & A & B)]; [left; exists x1, x2|right; exists (m' ++ x1), x2].
      * repeat split; [eapply phrase_after; eauto|exact B].
      * repeat split; [rewrite app_assoc; reflexivity|econstructor; eauto|exact B].
Qed.
(** A leftmost derivation, stopped before a construct. *)
Fixpoint derive_to (n : nat) (choices : list nat) (w : list (sym part)) {struct n} : option (list Selmaho * part * list (sym part)) :=
  match n, w, choices with
  | S n, Word s :: w, _ => match derive_to n choices w with Some (l, a, w') => Some (s :: l, a, w') | None => None end
  | S n, Part a :: w, [] => Some ([], a, w)
  | S n, Part a :: w, c :: choices => match nth_error (productions a) c with Some p => derive_to n choices (p ++ w) | None => None end
  | _, _, _ => None
  end.
Lemma derive_to_phrase n : forall choices w l a w', derive_to n choices w = Some (l, a, w') -> forall pre m post, map selmaho pre = l ->
  gens productions [Part a] m -> gens productions w' post -> phrase productions w a pre m post.
Proof.
  induction n as [|n IH]; intros choices w l a w' H pre m post E Gm Gp; [discriminate|]. cbn [derive_to] in H. destruct w as [|[s|b] w]; [discriminate| |].
  - destruct (derive_to n choices w) as [[[l' a'] w0]|] eqn:D; [|discriminate]. injection H as <- <- <-. destruct pre as [|t pre]; [discriminate|]. cbn in E. injection E as E1 E2.
    apply phrase_word; [exact E1|]. eapply IH; eassumption.
  - destruct choices as [|c choices].
    + injection H as <- <- <-. destruct pre; [|discriminate]. inversion Gm as [| |a0 p w0 m1 m2 Hp G1 G2]; subst. inversion G2; subst. rewrite app_nil_r. eapply phrase_here; eassumption.
    + destruct (nth_error (productions b) c) as [p|] eqn:N; [|discriminate]. pose proof (IH _ _ _ _ _ H pre m post E Gm Gp) as Hp. apply nth_error_In in N.
      apply phrase_app in Hp as [(x1 & x2 & -> & A & B)|(x1 & x2 & -> & A & B)]; [eapply phrase_in; eauto|eapply phrase_after; eauto].
Qed.

(** le nanmu [noi do pu klama la djan ku'o] cu djica le nu mi na prami la .alis .e do .i je pu ku mi go'i ra'o *)
Example C67_example_clause : phrase productions [Part Text] Clause (firstn 2 x65_1) (firstn 7 (skipn 2 x65_1)) (skipn 9 x65_1).
Proof.
  eapply (derive_to_phrase 999 [0;0;1;6;0;0;0;1;0;0;0;1;0;0;0;0;0;0;0;0;0;0]%nat); [vm_compute; reflexivity|vm_compute; reflexivity| |].
  - eapply (derive_gens 999 [0;0;1;2;0;0;0;0;0;0;0;0;0;0;0;0;0;0;0;0;0;1;0;0;0;0;0;1;0;0;0;0]%nat); vm_compute; reflexivity.
  - eapply (derive_gens 999 [0;0;0;0;1;0;0;0;0;0;0;0;0;0;0;0;0;1;0;0;0;0;0;0;0;0;0;0;0;0;1;0;0;1;0;0;0;0;0;0;0;0;0;1;0;0;0;0;0;1;0;0;2;0;0;0;0;0;0;0;0;0;1;1;0;1;3;0;1;0;0;0;0;0;0;0;0;0;0;0;0;0;0;1;0;0;0;4;0;0;0;0;0;0;0;0;0;0]%nat); vm_compute; reflexivity.
Qed.
(** le nanmu noi do pu klama la djan ku'o cu djica le nu mi na prami [la .alis .e do] .i je pu ku mi go'i ra'o *)
Example C67_example_sumti : phrase productions [Part Text] Sumti (firstn 16 x65_1) (firstn 4 (skipn 16 x65_1)) (skipn 20 x65_1).
Proof.
  eapply (derive_to_phrase 999 [0;0;1;6;0;0;0;1;0;0;0;1;0;0;0;0;0;0;0;0;0;0;0;0;1;2;0;0;0;0;0;0;0;0;0;0;0;0;0;0;0;0;0;1;0;0;0;0;0;1;0;0;0;0;0;0;0;0;1;0;0;0;0;0;0;0;0;0;0;0;0;1;0;0;0;0;0;0;0;0;0;0;0;0;1;0;0;1;0;0;0;0;0;0;0;0;0;1;0]%nat); [vm_compute; reflexivity|vm_compute; reflexivity| |].
  - eapply (derive_gens 999 [0;0;0;0;1;0;0;2;0;0;0;0;0;0;0]%nat); vm_compute; reflexivity.
  - eapply (derive_gens 999 [0;0;1;1;0;1;3;0;1;0;0;0;0;0;0;0;0;0;0;0;0;0;0;1;0;0;0;4;0;0;0;0;0;0;0;0;0;0]%nat); vm_compute; reflexivity.
Qed.
Example C67_example_kinds : kind Clause = Some "RelativeClause"%string /\ kind Sumti = Some "Sumti"%string.
Proof. split; reflexivity. Qed.
(** ... so the tree has a node for the relative clause. *)
Example C67_example_node : exists root u, cst_parse x65_1 = Ret (inl root) /\
  part_of root (firstn 2 x65_1) u (firstn 7 (skipn 2 x65_1)) (skipn 9 x65_1) /\ of_kind u "RelativeClause".
Proof. exact (C67_grouped _ _ _ _ _ C67_example_clause eq_refl). Qed.

(** CstEbnf.v -- a certified check that everything the parser consumes belongs to the EBNF grammar of SpecEbnf.v:
    inclusion of regular expressions whose letters are tokens and constructs, for every node of the rule table. *)
From Verif Require Import Base Span Selmaho Lex Cst CstRules CstApi CstMeta CstTotal SpecCst CstTree CstBalance CstParts SpecParts SpecEbnf.
From Verif Require CstAuto.
From Coq Require Import Lia Arith.
Import Datatypes.

(** * Decidable equality *)
Definition all_rules : list rule :=
 [text; paragraphs; paragraph; statement; statement_1; statement_2; statement_3; fragment; prenex; sentence; subsentence;
  bridi_tail; bridi_tail_1; bridi_tail_2; bridi_tail_3; gek_sentence; tail_terms; terms; connected_terms; terms_1; terms_2; term; termset;
  sumti; sumti_1; sumti_3; sumti_4; sumti_5; sumti_6; sumti_tail; sumti_tail_1; relative_clauses; relative_clause;
  selbri; selbri_2; selbri_3; selbri_4; selbri_5; selbri_6; tanru_unit; tanru_unit_1; tanru_unit_2; linkargs; zei_clause;
  quantifier; mex; mex_1; mex_2; rp_expression; operator; operator_1; operator_bo; operator_2; mex_operator; operand; operand_2; operand_3;
  number; lerfu_string; number_or_lerfu_string; lerfu_word; lerfu;
  ek; gihek; jek; joik; interval; joik_ek; joik_jek; gek; guhek; gik;
  tag; tense_modal; time; time_offset; time_duration; space; space_offset; space_interval; space_int_prop; space_motion; interval_property;
  free; vocative; subscript; indicators; indicator].
Scheme Equality for rule.
Definition rule_eqb : rule -> rule -> bool := rule_beq.
Lemma rule_eqb_eq a b : rule_eqb a b = true -> a = b.
Proof. apply internal_rule_dec_bl. Qed.
Fixpoint sels_eqb (l l' : list Selmaho) : bool :=
  match l, l' with [], [] => true | s :: l, s' :: l' => if sel_eqb s s' then sels_eqb l l' else false | _, _ => false end.
Lemma sels_eqb_eq l : forall l', sels_eqb l l' = true -> l = l'.
Proof. induction l as [|s l IH]; intros [|s' l'] H; cbn in H; try discriminate; [reflexivity|]. destruct (sel_eqb s s') eqn:E; [|discriminate]. apply sel_eqb_eq in E as ->. f_equal. apply IH, H. Qed.
Fixpoint eeqb (a b : ebnf) : bool :=
  match a, b with
  | Tok s, Tok s' => sel_eqb s s'
  | AnyBut l, AnyBut l' => sels_eqb l l'
  | Ref r, Ref r' => rule_eqb r r'
  | Eps, Eps => true
  | Seq a b, Seq a' b' | Alt a b, Alt a' b' => if eeqb a a' then eeqb b b' else false
  | Opt a, Opt a' | Star a, Star a' => eeqb a a'
  | _, _ => false
  end.
Lemma eeqb_eq a : forall b, eeqb a b = true -> a = b.
Proof.
  induction a; intros b H; destruct b; cbn in H; try discriminate; try reflexivity.
  - apply sel_eqb_eq in H as ->. reflexivity.
  - apply sels_eqb_eq in H as ->. reflexivity.
  - apply rule_eqb_eq in H as ->. reflexivity.
  - destruct (eeqb a1 b1) eqn:E; [|discriminate]. f_equal; auto.
  - destruct (eeqb a1 b1) eqn:E; [|discriminate]. f_equal; auto.
  - f_equal; auto.
  - f_equal; auto.
Qed.

(** * Letters and words over them *)
Inductive spells : ebnf -> list ebnf -> Prop :=
| sp_tok s : spells (Tok s) [Tok s]
| sp_but l : spells (AnyBut l) [AnyBut l]
| sp_ref r : spells (Ref r) [Ref r]
| sp_eps : spells Eps []
| sp_seq a b w1 w2 : spells a w1 -> spells b w2 -> spells (Seq a b) (w1 ++ w2)
| sp_alt_l a b w : spells a w -> spells (Alt a b) w
| sp_alt_r a b w : spells b w -> spells (Alt a b) w
| sp_opt_no a : spells (Opt a) []
| sp_opt a w : spells a w -> spells (Opt a) w
| sp_star_no a : spells (Star a) []
| sp_star a w1 w2 : spells a w1 -> spells (Star a) w2 -> spells (Star a) (w1 ++ w2).
Inductive reads : list ebnf -> list token -> Prop :=
| reads_nil : reads [] []
| reads_cons c w m1 m2 : generates c m1 -> reads w m2 -> reads (c :: w) (m1 ++ m2).
Lemma reads_one c m : generates c m -> reads [c] m.
Proof. intros H. rewrite <- (app_nil_r m). constructor; [exact H|constructor]. Qed.
Lemma reads_app w1 m1 w2 m2 : reads w1 m1 -> reads w2 m2 -> reads (w1 ++ w2) (m1 ++ m2).
Proof. induction 1; intros H2; cbn [app]; [exact H2|]. rewrite <- app_assoc. constructor; auto. Qed.
Lemma generates_reads e m : generates e m -> exists w, spells e w /\ reads w m.
Proof.
  induction 1.
  - exists [Tok s]. split; [constructor|apply reads_one; constructor; assumption].
  - exists [AnyBut l]. split; [constructor|apply reads_one; constructor; assumption].
  - exists [Ref r]. split; [constructor|apply reads_one; constructor; assumption].
  - exists []. split; constructor.
  - destruct IHgenerates1 as (w1 & A1 & B1), IHgenerates2 as (w2 & A2 & B2). exists (w1 ++ w2). split; [constructor; assumption|apply reads_app; assumption].
  - destruct IHgenerates as (w & A & B). exists w. split; [constructor; assumption|assumption].
  - destruct IHgenerates as (w & A & B). exists w. split; [apply sp_alt_r; assumption|assumption].
  - exists []. split; constructor.
  - destruct IHgenerates as (w & A & B). exists w. split; [constructor; assumption|assumption].
  - exists []. split; constructor.
  - destruct IHgenerates1 as (w1 & A1 & B1), IHgenerates2 as (w2 & A2 & B2). exists (w1 ++ w2). split; [constructor; assumption|apply reads_app; assumption].
Qed.

Fixpoint cat (a b : ebnf) : ebnf := match a with Eps => b | Seq x y => Seq x (cat y b) | _ => match b with Eps => a | _ => Seq a b end end.
Lemma cat_spells a : forall b w1 w2, spells a w1 -> spells b w2 -> spells (cat a b) (w1 ++ w2).
Proof.
  assert (D : forall a b w1 w2, spells a w1 -> spells b w2 -> spells (match b with Eps => a | _ => Seq a b end) (w1 ++ w2)).
  { intros a0 b w1 w2 H1 H2. destruct b; try (constructor; assumption). inversion H2. rewrite app_nil_r. exact H1. }
  induction a; intros b w1 w2 H1 H2; cbn [cat]; try (apply D; assumption).
  - inversion H1. exact H2.
  - inversion H1; subst. rewrite <- app_assoc. constructor; [assumption|]. apply IHa2; assumption.
Qed.
Lemma cat_generates a : forall b m, generates (cat a b) m -> exists m1 m2, m = m1 ++ m2 /\ generates a m1 /\ generates b m2.
Proof.
  assert (D : forall a b m, generates (match b with Eps => a | _ => Seq a b end) m -> exists m1 m2, m = m1 ++ m2 /\ generates a m1 /\ generates b m2).
  { intros a0 b m H. destruct b; try (inversion H; subst; eauto; fail). exists m, []. split; [symmetry; apply app_nil_r|]. split; [exact H|constructor]. }
  induction a; intros b m H; cbn [cat] in H; try (apply D; assumption).
  - exists [], m. split; [reflexivity|]. split; [constructor|exact H].
  - inversion H as [| | | |x y n1 n2 G1 G2| | | | | |]; subst. apply IHa2 in G2 as (k1 & k2 & -> & A & B). exists (n1 ++ k1), k2. split; [apply app_assoc|]. split; [constructor; assumption|exact B].
Qed.

(** The source: letters are atoms. *)
Fixpoint null (e : ebnf) : bool :=
  match e with Eps | Opt _ | Star _ => true | Tok _ | AnyBut _ | Ref _ => false | Seq a b => if null a then null b else false | Alt a b => if null a then true else null b end.
Fixpoint lin (e : ebnf) : list (ebnf * ebnf) :=
  match e with
  | Eps => []
  | Tok _ | AnyBut _ | Ref _ => [(e, Eps)]
  | Seq a b => map (fun p => (fst p, cat (snd p) b)) (lin a) ++ (if null a then lin b else [])
  | Alt a b => lin a ++ lin b
  | Opt a => lin a
  | Star a => map (fun p => (fst p, cat (snd p) (Star a))) (lin a)
  end.
Lemma spells_lin e w : spells e w -> match w with [] => null e = true | c :: w' => exists e', In (c, e') (lin e) /\ spells e' w' end.
Proof.
  induction 1; cbn [null lin].
  - exists Eps. split; [left; reflexivity|constructor].
  - exists Eps. split; [left; reflexivity|constructor].
  - exists Eps. split; [left; reflexivity|constructor].
  - reflexivity.
  - destruct w1 as [|c w1]; cbn [app].
    + rewrite IHspells1. destruct w2 as [|c w2]; [exact IHspells2|]. destruct IHspells2 as (e' & A & B). exists e'. split; [apply in_or_app; right; exact A|exact B].
    + destruct IHspells1 as (e' & A & B). exists (cat e' b). split; [apply in_or_app; left; apply in_map_iff; exists (c, e'); split; [reflexivity|exact A]|]. apply cat_spells; assumption.
  - destruct w as [|c w]; [rewrite IHspells; reflexivity|]. destruct IHspells as (e' & A & B). exists e'. split; [apply in_or_app; left; exact A|exact B].
  - destruct w as [|c w]; [rewrite IHspells; destruct (null a); reflexivity|]. destruct IHspells as (e' & A & B). exists e'. split; [apply in_or_app; right; exact A|exact B].
  - reflexivity.
  - destruct w as [|c w]; [reflexivity|exact IHspells].
  - reflexivity.
  - destruct w1 as [|c w1]; cbn [app].
    + destruct w2 as [|c w2]; [reflexivity|]. exact IHspells2.
    + destruct IHspells1 as (e' & A & B). exists (cat e' (Star a)). split; [apply in_map_iff; exists (c, e'); split; [reflexivity|exact A]|]. apply cat_spells; assumption.
Qed.

(** The target: some constructs may be unfolded. *)
Fixpoint tnull (n : nat) : ebnf -> bool :=
  fix go (e : ebnf) : bool :=
  match e with
  | Eps | Opt _ | Star _ => true | Tok _ | AnyBut _ => false
  | Ref r => match n with O => false | S n => tnull n (body r) end
  | Seq a b => if go a then go b else false | Alt a b => if go a then true else go b
  end.
Lemma tnull_eq n e : tnull n e = match e with
  | Eps | Opt _ | Star _ => true | Tok _ | AnyBut _ => false
  | Ref r => match n with O => false | S n => tnull n (body r) end
  | Seq a b => if tnull n a then tnull n b else false | Alt a b => if tnull n a then true else tnull n b
  end.
Proof. destruct n, e; reflexivity. Qed.
Lemma tnull_ok n : forall e, tnull n e = true -> generates e [].
Proof.
  induction n as [|n IH]; induction e; rewrite tnull_eq; intros H; try discriminate; try (constructor; fail).
  all: try (match type of H with (if ?b then true else _) = true => destruct b eqn:E; [apply gen_alt_l; auto|apply gen_alt_r; auto] end; fail).
  all: try (match type of H with (if ?b then _ else false) = true => destruct b eqn:E; [|discriminate]; change (@nil token) with (@nil token ++ []); constructor; auto end; fail).
  constructor. apply IH, H.
Qed.
Section Unfold.
Context (unf : rule -> bool).
Fixpoint tder (n : nat) (c : ebnf) : ebnf -> list ebnf :=
  fix go (e : ebnf) : list ebnf :=
  match e with
  | Eps => []
  | Tok _ | AnyBut _ => if eeqb c e then [Eps] else []
  | Ref r => if eeqb c e then [Eps] else match n with O => [] | S n => if unf r then tder n c (body r) else [] end
  | Seq a b => map (fun a' => cat a' b) (go a) ++ (if tnull 8 a then go b else [])
  | Alt a b => go a ++ go b
  | Opt a => go a
  | Star a => map (fun a' => cat a' (Star a)) (go a)
  end.
Lemma tder_eq n c e : tder n c e = match e with
  | Eps => []
  | Tok _ | AnyBut _ => if eeqb c e then [Eps] else []
  | Ref r => if eeqb c e then [Eps] else match n with O => [] | S n => if unf r then tder n c (body r) else [] end
  | Seq a b => map (fun a' => cat a' b) (tder n c a) ++ (if tnull 8 a then tder n c b else [])
  | Alt a b => tder n c a ++ tder n c b
  | Opt a => tder n c a
  | Star a => map (fun a' => cat a' (Star a)) (tder n c a)
  end.
Proof. destruct n, e; reflexivity. Qed.
Lemma tder_ok n : forall c e e' m1 m2, In e' (tder n c e) -> generates c m1 -> generates e' m2 -> generates e (m1 ++ m2).
Proof.
  assert (At : forall (c e e' : ebnf) m1 m2, In e' (if eeqb c e then [Eps] else []) -> generates c m1 -> generates e' m2 -> generates e (m1 ++ m2)).
  { intros c e e' m1 m2 H A B. destruct (eeqb c e) eqn:E; [|destruct H]. apply eeqb_eq in E as <-. destruct H as [<-|[]]. inversion B. rewrite app_nil_r. exact A. }
  induction n as [|n IHn]; intros c e; induction e; intros e' m1 m2 H A B; rewrite tder_eq in H; try (eapply At; eassumption); try (destruct H; fail).
  all: try (apply in_app_or in H as [H|H]; [apply in_map_iff in H as (a' & <- & Ha); apply cat_generates in B as (k1 & k2 & -> & B1 & B2); rewrite app_assoc; constructor; [eapply IHe1; eassumption|exact B2]
    | destruct (tnull 8 e1) eqn:E; [|destruct H]; change (m1 ++ m2) with ([] ++ (m1 ++ m2)); constructor; [eapply tnull_ok, E|eapply IHe2; eassumption]]; fail).
  all: try (apply in_app_or in H as [H|H]; [apply gen_alt_l; eapply IHe1; eassumption|apply gen_alt_r; eapply IHe2; eassumption]; fail).
  all: try (apply gen_opt; eapply IHe; eassumption; fail).
  all: try (apply in_map_iff in H as (a' & <- & Ha); apply cat_generates in B as (k1 & k2 & -> & B1 & B2); rewrite app_assoc; apply gen_star; [eapply IHe; eassumption|exact B2]; fail).
  destruct (eeqb c r) eqn:E; [eapply At; [rewrite E|..]; eassumption|]. destruct (unf r); [|destruct H]. constructor. eapply IHn; eassumption.
Qed.

(** * Inclusion: a closed set of states *)
Definition state : Type := ebnf * list ebnf.
Fixpoint emem (e : ebnf) (l : list ebnf) : bool := match l with [] => false | x :: l => if eeqb e x then true else emem e l end.
Fixpoint dedup (l : list ebnf) : list ebnf := match l with [] => [] | x :: l => let r := dedup l in if emem x r then r else x :: r end.
Fixpoint es_eqb (l l' : list ebnf) : bool := match l, l' with [], [] => true | a :: l, a' :: l' => if eeqb a a' then es_eqb l l' else false | _, _ => false end.
Fixpoint smem (s : state) (l : list state) : bool := match l with [] => false | x :: l => if (if eeqb (fst s) (fst x) then es_eqb (snd s) (snd x) else false) then true else smem s l end.
Definition next (s : state) : list state := map (fun p => (snd p, dedup (flat_map (tder 4 (fst p)) (snd s)))) (lin (fst s)).
Fixpoint explore (n : nat) (todo seen : list state) : list state :=
  match n with
  | O => seen
  | S n => match todo with
           | [] => seen
           | s :: todo => if smem s seen then explore n todo seen else explore n (next s ++ todo) (s :: seen)
           end
  end.
Definition fine (seen : list state) (s : state) : bool :=
  (if null (fst s) then existsb (tnull 8) (snd s) else true) && forallb (fun s' => smem s' seen) (next s).
Definition included (e : ebnf) (r : rule) : bool :=
  let seen := explore 3000 [(e, [Ref r])] [] in smem (e, [Ref r]) seen && forallb (fine seen) seen.

Lemma es_eqb_eq l : forall l', es_eqb l l' = true -> l = l'.
Proof. induction l as [|a l IH]; intros [|a' l'] H; cbn in H; try discriminate; [reflexivity|]. destruct (eeqb a a') eqn:E; [|discriminate]. apply eeqb_eq in E as ->. f_equal. apply IH, H. Qed.
Lemma smem_in s l : smem s l = true -> In s l.
Proof.
  induction l as [|x l IH]; cbn [smem]; intros H; [discriminate|]. destruct (if eeqb (fst s) (fst x) then es_eqb (snd s) (snd x) else false) eqn:E; [|right; apply IH, H].
  destruct (eeqb (fst s) (fst x)) eqn:E1; [|discriminate]. apply eeqb_eq in E1. apply es_eqb_eq in E. left. destruct s, x. cbn in *. congruence.
Qed.
Lemma dedup_in x l : In x (dedup l) -> In x l.
Proof. induction l as [|y l IH]; cbn [dedup]; [intros []|]. destruct (emem y (dedup l)); [intros H; right; apply IH, H|]. intros [->|H]; [left; reflexivity|right; apply IH, H]. Qed.
Lemma closed_ok seen : forallb (fine seen) seen = true -> forall w e S m, In (e, S) seen -> spells e w -> reads w m -> exists t, In t S /\ generates t m.
Proof.
  intros Hc. rewrite forallb_forall in Hc. induction w as [|c w IH]; intros e S m Hin Hs Hr; pose proof (spells_lin _ _ Hs) as Hl; specialize (Hc _ Hin) as Hf; unfold fine in Hf; apply andb_true_iff in Hf as [H1 H2].
  - inversion Hr; subst. cbn [fst snd] in H1. rewrite Hl in H1. apply existsb_exists in H1 as (t & Ht & Hn). exists t. split; [exact Ht|]. eapply tnull_ok, Hn.
  - destruct Hl as (e' & Hin' & Hs'). inversion Hr as [|c0 w0 m1 m2 G1 G2]; subst. rewrite forallb_forall in H2.
    specialize (H2 (e', dedup (flat_map (tder 4 c) S))). cbn [fst snd] in H2.
    assert (Hn : In (e', dedup (flat_map (tder 4 c) S)) (next (e, S))) by (unfold next; apply in_map_iff; exists (c, e'); split; [reflexivity|exact Hin']).
    apply H2, smem_in in Hn. destruct (IH _ _ _ Hn Hs' G2) as (t & Ht & Hg). apply dedup_in, in_flat_map in Ht as (t0 & Ht0 & Ht). exists t0. split; [exact Ht0|]. eapply tder_ok; eassumption.
Qed.
Lemma included_ok e r m : included e r = true -> generates e m -> generates (Ref r) m.
Proof.
  unfold included. intros H G. apply andb_true_iff in H as [H1 H2]. apply smem_in in H1. destruct (generates_reads _ _ G) as (w & Hs & Hr).
  destruct (closed_ok _ H2 _ _ _ _ H1 Hs Hr) as (t & [<-|[]] & Ht). exact Ht.
Qed.
End Unfold.

(** * What an expression of the rule table consumes *)
Definition construct (nm : string) : option rule := match find (fun p => has_kind (fst p) nm) constructs with Some p => Some (snd p) | None => None end.
Fixpoint sure (e : gexp cnt) : bool :=
  match e with GNil | GOpt _ => true | GCons a b => sure a && sure b | GAlt a b => sure a || sure b | GNode _ e => sure e | _ => false end.
Definition both (a b : option ebnf) : option ebnf := match a, b with Some a, Some b => Some (Seq a b) | _, _ => None end.
Definition either (a b : option ebnf) : option ebnf := match a, b with Some a, Some b => Some (Alt a b) | _, _ => None end.
Definition on (f : ebnf -> ebnf) (a : option ebnf) : option ebnf := match a with Some a => Some (f a) | None => None end.
Fixpoint src (d : nat) : gexp cnt -> option ebnf :=
  fix go (e : gexp cnt) : option ebnf :=
  match e with
  | GTok s => Some (Tok s)
  | GAny | GSpan _ => Some (AnyBut [])
  | GCall x => match d with O => None | S d => src d (crule x) end
  | GNil => Some Eps
  | GCons a b => both (go a) (go b)
  | GAlt a b => if sure a then go a else either (go a) (go b)
  | GOpt a => on Opt (go a)
  | GLoop _ a => on Star (go a)
  | GMany1 a => on (fun a => Seq a (Star a)) (go a)
  | GManyTill f g => match go f, go g with Some f, Some g => Some (Seq (Star f) g) | _, _ => None end
  | GNotThen _ a | GNotAfter a _ | GCut a | GConsume _ a => go a
  | GPost (PNotSel l) (GNode nm (GCons GAny GNil)) => match construct nm with Some r => None | None => Some (AnyBut l) end
  | GPost _ a => go a
  | GNode nm a => match construct nm with Some r => Some (Ref r) | None => go a end
  end.
(** some field is not empty *)
Fixpoint src_some (d : nat) (e : gexp cnt) : option ebnf :=
  match e with
  | GCons (GOpt a) GNil => src d a
  | GCons (GLoop _ a) GNil => on (fun a => Seq a (Star a)) (src d a)
  | GCons (GOpt a) b => either (both (src d a) (src d b)) (src_some d b)
  | GCons (GLoop _ a) b => either (both (on (fun a => Seq a (Star a)) (src d a)) (src d b)) (src_some d b)
  | _ => None
  end.
Definition D : nat := 6.
Definition unf (r0 r : rule) : bool :=
  rule_eqb r0 r || existsb (rule_eqb r) [gek_sentence; tail_terms; terms; tag; sumti_3; terms_1; terms_2; statement_1; statement_2; mex_1; sumti_tail; tanru_unit_2; selbri_6].
Definition kinds_in (nm : string) (s : option ebnf) : bool :=
  forallb (fun p => if has_kind (fst p) nm then match s with Some s => included (unf (snd p)) s (snd p) | None => false end else true) constructs.
Fixpoint chk (e : gexp cnt) : bool :=
  match e with
  | GTok _ | GAny | GSpan _ | GCall _ | GNil => true
  | GCons a b | GManyTill a b => chk a && chk b
  | GAlt a b => chk a && (sure a || chk b)
  | GOpt a | GLoop _ a | GMany1 a | GNotThen _ a | GNotAfter a _ | GCut a | GConsume _ a => chk a
  | GPost PSomeField (GNode nm a) => kinds_in nm (src_some D a) && chk a
  | GPost _ a => chk a
  | GNode nm a => kinds_in nm (src D a) && chk a
  end.

Lemma table_checked : forallb (fun x => chk (crule x)) all_cnts = true.
Proof. vm_cast_no_check (eq_refl true). Qed.
Lemma chk_rule x : chk (crule x) = true.
Proof. pose proof table_checked as H. rewrite forallb_forall in H. apply H, all_cnts_complete. Qed.

(** Every node inside is what its kind says. *)
Inductive good : val -> list token -> Prop :=
| good_tok t : good (VTok t) [t]
| good_span nm t : In nm ["ZoiDelimiter"; "ZoiText"]%string -> good (VSpan nm (tspan t)) [t]
| good_node nm fs ms : Forall2 good fs ms -> (forall k r, In (k, r) constructs -> has_kind k nm = true -> generates (Ref r) (List.concat ms)) -> good (VNode nm fs) (List.concat ms)
| good_pass fs ms : Forall2 good fs ms -> good (VPass fs) (List.concat ms).

Lemma good_fields v m : good v m -> exists ms, Forall2 good (fields_of v) ms /\ m = List.concat ms.
Proof.
  intros H. destruct H; cbn [fields_of].
  - exists [[t]]. split; [repeat constructor|reflexivity].
  - exists [[t]]. split; [constructor; [apply good_span; assumption|constructor]|reflexivity].
  - exists [List.concat ms]. split; [constructor; [constructor; assumption|constructor]|cbn; symmetry; apply app_nil_r].
  - exists ms. split; [assumption|reflexivity].
Qed.
Lemma good_vcons v w m1 m2 : good v m1 -> good w m2 -> good (vcons v w) (m1 ++ m2).
Proof. intros H1 H2. destruct (good_fields _ _ H2) as (ms & HF & ->). unfold vcons. change (m1 ++ List.concat ms) with (List.concat (m1 :: ms)). apply good_pass. constructor; assumption. Qed.
Lemma good_nil : good (VPass []) [].
Proof. change (@nil token) with (List.concat (@nil (list token))). constructor. constructor. Qed.
Lemma good_one v m : good v m -> good (VPass [v]) m.
Proof. intros H. rewrite <- (app_nil_r m). change (m ++ []) with (List.concat [m]). apply good_pass. constructor; [exact H|constructor]. Qed.

Lemma sure_ok n : forall e i x, sure e = true -> grun crule n e i = CErr x -> False.
Proof.
  induction n as [|n IH]; intros e i x Hs; [discriminate|]. destruct e; try discriminate Hs; rewrite grun_S; cbn [sure] in Hs; cbn [gstep].
  - discriminate.
  - apply andb_true_iff in Hs as [H1 H2]. destruct (grun crule n e1 i) as [|r1 v1|y|y] eqn:E; try discriminate; [|destruct (IH _ _ _ H1 E)]. destruct (grun crule n e2 r1) as [|r2 v2|y|y] eqn:E2; try discriminate. destruct (IH _ _ _ H2 E2).
  - destruct (grun crule n e1 i) as [|r1 v1|y|y] eqn:E; try discriminate. apply orb_true_iff in Hs as [Hs|Hs]; [destruct (IH _ _ _ Hs E)|]. destruct (grun crule n e2 i) as [|r2 v2|y'|y'] eqn:E2; try discriminate. destruct (IH _ _ _ Hs E2).
  - destruct (grun crule n e i); discriminate.
  - destruct (grun crule n e i) as [|r1 v1|y|y] eqn:E; try discriminate. destruct (IH _ _ _ Hs E).
Qed.

Definition whole (e : gexp cnt) (i r : list token) (v : val) : Prop :=
  exists m, i = m ++ r /\ good v m /\ forall d s, src d e = Some s -> generates s m.

Lemma src_eq d e : src d e = match e with
  | GTok s => Some (Tok s)
  | GAny | GSpan _ => Some (AnyBut [])
  | GCall x => match d with O => None | S d => src d (crule x) end
  | GNil => Some Eps
  | GCons a b => both (src d a) (src d b)
  | GAlt a b => if sure a then src d a else either (src d a) (src d b)
  | GOpt a => on Opt (src d a)
  | GLoop _ a => on Star (src d a)
  | GMany1 a => on (fun a => Seq a (Star a)) (src d a)
  | GManyTill f g => match src d f, src d g with Some f, Some g => Some (Seq (Star f) g) | _, _ => None end
  | GNotThen _ a | GNotAfter a _ | GCut a | GConsume _ a => src d a
  | GPost (PNotSel l) (GNode nm (GCons GAny GNil)) => match construct nm with Some r => None | None => Some (AnyBut l) end
  | GPost _ a => src d a
  | GNode nm a => match construct nm with Some r => Some (Ref r) | None => src d a end
  end.
Proof. destruct d, e; reflexivity. Qed.

Lemma kinds_ok nm s m k r : kinds_in nm (Some s) = true -> generates s m -> In (k, r) constructs -> has_kind k nm = true -> generates (Ref r) m.
Proof.
  intros H G Hin Hk. unfold kinds_in in H. rewrite forallb_forall in H. specialize (H _ Hin). cbn [fst snd] in H. rewrite Hk in H. eapply included_ok; eassumption.
Qed.
Lemma kinds_none nm k r : kinds_in nm None = true -> In (k, r) constructs -> has_kind k nm = true -> False.
Proof. intros H Hin Hk. unfold kinds_in in H. rewrite forallb_forall in H. specialize (H _ Hin). cbn [fst snd] in H. rewrite Hk in H. discriminate. Qed.
Lemma construct_in nm r : construct nm = Some r -> exists k, In (k, r) constructs /\ has_kind k nm = true.
Proof. unfold construct. destruct (find _ constructs) as [[k r0]|] eqn:E; [|discriminate]. intros H. injection H as <-. apply find_some in E as [A B]. exists k. split; assumption. Qed.

(** a node whose fields consume [m] *)
Lemma node_whole nm v m (so : option ebnf) : good v m -> kinds_in nm so = true -> (forall s, so = Some s -> generates s m) ->
  good (VNode nm (fields_of v)) m /\ (forall r, construct nm = Some r -> generates (Ref r) m).
Proof.
  intros Hg Hk Hs. assert (K : forall k r, In (k, r) constructs -> has_kind k nm = true -> generates (Ref r) m).
  { intros k r Hin Hh. destruct so as [s|]; [eapply kinds_ok; [exact Hk|apply Hs; reflexivity|exact Hin|exact Hh]|destruct (kinds_none _ _ _ Hk Hin Hh)]. }
  destruct (good_fields _ _ Hg) as (ms & HF & ->). split; [apply good_node; assumption|]. intros r Hr. apply construct_in in Hr as (k & Hin & Hh). eapply K; eassumption.
Qed.

Section Step.
Context (n : nat) (IH : forall k, (k < n)%nat -> forall e i r v, grun crule k e i = COk r v -> chk e = true -> span_names e = true -> whole e i r v).

Lemma loop_some k kd a i r v : (k < n)%nat -> grun crule k (GLoop kd a) i = COk r v -> chk a = true -> span_names a = true ->
  exists m, i = m ++ r /\ if nonempty v then forall d s, src d a = Some s -> generates (Seq s (Star s)) m else m = [].
Proof.
  intros Hk E Hc Hs. destruct k as [|k]; [discriminate|]. rewrite grun_S in E. cbn [gstep] in E.
  destruct (grun crule k a i) as [|r1 v1|x|x] eqn:E1; try discriminate.
  - destruct (same_len r1 i); [discriminate|]. destruct (grun crule k (GLoop kd a) r1) as [|r2 v2|x|x] eqn:E2; try discriminate. injection E as <- <-.
    destruct (IH k ltac:(lia) _ _ _ _ E1 Hc Hs) as (m1 & -> & _ & G1). destruct (IH k ltac:(lia) (GLoop kd a) _ _ _ E2 Hc Hs) as (m2 & -> & _ & G2).
    exists (m1 ++ m2). split; [apply app_assoc|]. cbn [vcons nonempty]. intros d s Hd. constructor; [eapply G1, Hd|]. apply (G2 d). rewrite src_eq, Hd. reflexivity.
  - injection E as <- <-. exists []. split; reflexivity.
Qed.
Lemma opt_some k a i r v : (k < n)%nat -> grun crule k (GOpt a) i = COk r v -> chk a = true -> span_names a = true ->
  exists m, i = m ++ r /\ if nonempty v then forall d s, src d a = Some s -> generates s m else m = [].
Proof.
  intros Hk E Hc Hs. destruct k as [|k]; [discriminate|]. rewrite grun_S in E. cbn [gstep] in E.
  destruct (grun crule k a i) as [|r1 v1|x|x] eqn:E1; try discriminate; injection E as <- <-.
  - destruct (IH k ltac:(lia) _ _ _ _ E1 Hc Hs) as (m1 & -> & _ & G1). exists m1. split; [reflexivity|]. cbn [nonempty]. exact G1.
  - exists []. split; reflexivity.
Qed.
Lemma nil_run k i r v : grun crule k GNil i = COk r v -> r = i /\ v = VPass [].
Proof. destruct k as [|k]; [discriminate|]. rewrite grun_S. cbn [gstep]. intros H. injection H as <- <-. auto. Qed.

Definition field_of (a : gexp cnt) : option (gexp cnt * (ebnf -> ebnf)) :=
  match a with GOpt a => Some (a, fun x => x) | GLoop _ a => Some (a, fun x => Seq x (Star x)) | _ => None end.
Lemma field_some k a a0 f i r v : (k < n)%nat -> field_of a = Some (a0, f) -> grun crule k a i = COk r v -> chk a = true -> span_names a = true ->
  exists m, i = m ++ r /\ if nonempty v then forall d s, on f (src d a0) = Some s -> generates s m else m = [].
Proof.
  intros Hk Hf E Hc Hs. destruct a; try discriminate Hf; injection Hf as <- <-.
  - destruct (opt_some _ _ _ _ _ Hk E Hc Hs) as (m & -> & H). exists m. split; [reflexivity|]. destruct (nonempty v); [|exact H]. intros d s Hd. apply (H d). destruct (src d a); [exact Hd|discriminate].
  - destruct (loop_some _ _ _ _ _ _ Hk E Hc Hs) as (m & -> & H). exists m. split; [reflexivity|]. destruct (nonempty v); [|exact H]. intros d s Hd. destruct (src d a) as [s0|] eqn:E0; [|discriminate]. injection Hd as <-. exact (H d _ E0).
Qed.
Lemma some_run : forall e k i r v d s, (k < n)%nat -> grun crule k e i = COk r v -> chk e = true -> span_names e = true ->
  src_some d e = Some s -> existsb nonempty (fields_of v) = true -> exists m, i = m ++ r /\ generates s m.
Proof.
  induction e as [s0| |nm|z| |e1 IHe1 e2 IHe2|a IHa b IHb|e IHe|kk e IHe|e IHe|f IHf g IHg|p IHp e IHe|e IHe p IHp|e IHe|nm e IHe|c e IHe|nm e IHe]; intros k i r v d s Hk E Hc Hs Hsrc Hv; try discriminate Hsrc.
  assert (Hf : exists a f, field_of e1 = Some (a, f) /\
    src_some d (GCons e1 e2) = match e2 with GNil => on f (src d a) | _ => either (both (on f (src d a)) (src d e2)) (src_some d e2) end).
  { cbn [src_some] in Hsrc |- *. destruct e1; try discriminate Hsrc; cbn [field_of]; (eexists _, _; split; [reflexivity|]); destruct e2; cbn [on]; try reflexivity; match goal with |- context [src d ?x] => destruct (src d x); reflexivity end. }
  destruct Hf as (a & f & Hf & Es). rewrite Es in Hsrc. clear Es.
  cbn [chk span_names] in Hc, Hs. apply andb_true_iff in Hc as [Hc1 Hc2]. apply andb_true_iff in Hs as [Hs1 Hs2].
  destruct k as [|k]; [discriminate|]. rewrite grun_S in E. cbn [gstep] in E. destruct (grun crule k e1 i) as [|r1 v1|x|x] eqn:E1; try discriminate.
  destruct (grun crule k e2 r1) as [|r2 v2|x|x] eqn:E2; try discriminate. injection E as <- <-. cbn [vcons fields_of existsb] in Hv.
  destruct (field_some k e1 a f i r1 v1 ltac:(lia) Hf E1 Hc1 Hs1) as (m1 & -> & H1).
  assert (Hd : e2 = GNil \/ match e2 with GNil => on f (src d a) | _ => either (both (on f (src d a)) (src d e2)) (src_some d e2) end = either (both (on f (src d a)) (src d e2)) (src_some d e2)) by (destruct e2; auto).
  destruct Hd as [->|Hd].
  - apply nil_run in E2 as [-> ->]. cbn [fields_of existsb] in Hv. rewrite orb_false_r in Hv. rewrite Hv in H1. exists m1. split; [reflexivity|]. eapply H1, Hsrc.
  - rewrite Hd in Hsrc. destruct (on f (src d a)) as [sa|] eqn:Ea; [|discriminate]. destruct (src d e2) as [sb|] eqn:Eb; [|discriminate]. cbn [both] in Hsrc. destruct (src_some d e2) as [sc|] eqn:Ec; [|discriminate]. injection Hsrc as <-.
    destruct (nonempty v1).
    + destruct (IH k ltac:(lia) _ _ _ _ E2 Hc2 Hs2) as (m2 & -> & _ & G2). exists (m1 ++ m2). split; [apply app_assoc|]. apply gen_alt_l. constructor; [eapply H1, Ea|eapply G2, Eb].
    + subst m1. cbn [orb] in Hv. destruct (IHe2 k _ _ _ d sc ltac:(lia) E2 Hc2 Hs2 Ec Hv) as (m2 & -> & G2). exists m2. split; [reflexivity|]. apply gen_alt_r, G2.
Qed.
End Step.

Lemma same_m (m m' r : list token) : m ++ r = m' ++ r -> m = m'.
Proof. apply app_inv_tail. Qed.

Lemma run_whole n : forall e i r v, grun crule n e i = COk r v -> chk e = true -> span_names e = true -> whole e i r v.
Proof.
  induction n as [n IH] using lt_wf_ind. intros e i r v E Hc Hs. destruct n as [|n]; [discriminate|].
  assert (IHn : forall e i r v, grun crule n e i = COk r v -> chk e = true -> span_names e = true -> whole e i r v) by (apply IH; lia).
  rewrite grun_S in E. destruct e as [s| |nm|z| |e es|a b|e|kk e|e|f g|p e|e p|e|nm e|c e|nm e]; cbn [gstep] in E; cbn [span_names] in Hs;
    repeat match goal with H : _ && _ = true |- _ => apply andb_true_iff in H as [? ?] end.
  - destruct i as [|t i]; [discriminate|]. destruct (sel_eqb (selmaho t) s) eqn:Es; [|discriminate]. injection E as <- <-. apply sel_eqb_eq in Es.
    exists [t]. split; [reflexivity|]. split; [constructor|]. intros d x H. rewrite src_eq in H. injection H as <-. constructor. exact Es.
  - destruct i as [|t i]; [discriminate|]. injection E as <- <-. exists [t]. split; [reflexivity|]. split; [constructor|]. intros d x H. rewrite src_eq in H. injection H as <-. constructor. intros [].
  - destruct i as [|t i]; [discriminate|]. injection E as <- <-. exists [t]. split; [reflexivity|]. split; [constructor; apply orb_true_iff in Hs as [Hs|Hs]; apply String.eqb_eq in Hs; subst; cbn; auto|].
    intros d x H. rewrite src_eq in H. injection H as <-. constructor. intros [].
  - destruct (IHn _ _ _ _ E (chk_rule z) (span_names_rules z)) as (m & -> & A & B). exists m. split; [reflexivity|]. split; [exact A|]. intros d x H. rewrite src_eq in H. destruct d as [|d]; [discriminate|]. eapply B, H.
  - injection E as <- <-. exists []. split; [reflexivity|]. split; [apply good_nil|]. intros d x H. rewrite src_eq in H. injection H as <-. constructor.
  - cbn [chk] in Hc. apply andb_true_iff in Hc as [Hc1 Hc2]. destruct (grun crule n e i) as [|r1 v1|x|x] eqn:E1; try discriminate. destruct (grun crule n es r1) as [|r2 v2|x|x] eqn:E2; try discriminate. injection E as <- <-.
    destruct (IHn _ _ _ _ E1 Hc1 H) as (m1 & -> & A1 & B1). destruct (IHn _ _ _ _ E2 Hc2 H0) as (m2 & -> & A2 & B2).
    exists (m1 ++ m2). split; [apply app_assoc|]. split; [apply good_vcons; assumption|]. intros d x Hx. rewrite src_eq in Hx. destruct (src d e) as [sa|] eqn:Ea; [|discriminate]. destruct (src d es) as [sb|] eqn:Eb; [|discriminate]. injection Hx as <-.
    constructor; [eapply B1, Ea|eapply B2, Eb].
  - cbn [chk] in Hc. apply andb_true_iff in Hc as [Hc1 Hc2]. destruct (grun crule n a i) as [|r1 v1|x|x] eqn:E1; try discriminate.
    + injection E as <- <-. destruct (IHn _ _ _ _ E1 Hc1 H) as (m & -> & A & B). exists m. split; [reflexivity|]. split; [exact A|]. intros d x Hx. rewrite src_eq in Hx. destruct (sure a); [eapply B, Hx|].
      destruct (src d a) as [sa|] eqn:Ea; [|discriminate]. destruct (src d b) as [sb|] eqn:Eb; [|discriminate]. injection Hx as <-. apply gen_alt_l. eapply B, Ea.
    + destruct (sure a) eqn:Esu; [exfalso; eapply sure_ok; eassumption|]. destruct (grun crule n b i) as [|r2 v2|x'|x'] eqn:E2; try discriminate. injection E as <- <-.
      destruct (IHn _ _ _ _ E2 Hc2 H0) as (m & -> & A & B). exists m. split; [reflexivity|]. split; [exact A|]. intros d y Hx. rewrite src_eq, Esu in Hx.
      destruct (src d a) as [sa|] eqn:Ea; [|discriminate]. destruct (src d b) as [sb|] eqn:Eb; [|discriminate]. injection Hx as <-. apply gen_alt_r. eapply B, Eb.
  - cbn [chk] in Hc. destruct (grun crule n e i) as [|r1 v1|x|x] eqn:E1; try discriminate; injection E as <- <-.
    + destruct (IHn _ _ _ _ E1 Hc Hs) as (m & -> & A & B). exists m. split; [reflexivity|]. split; [apply good_one, A|]. intros d x Hx. rewrite src_eq in Hx. destruct (src d e) as [sa|] eqn:Ea; [|discriminate]. injection Hx as <-. apply gen_opt. eapply B, Ea.
    + exists []. split; [reflexivity|]. split; [apply good_nil|]. intros d y Hx. rewrite src_eq in Hx. destruct (src d e) as [sa|] eqn:Ea; [|discriminate]. injection Hx as <-. constructor.
  - cbn [chk] in Hc. destruct (grun crule n e i) as [|r1 v1|x|x] eqn:E1; try discriminate.
    + destruct (same_len r1 i); [discriminate|]. destruct (grun crule n (GLoop kk e) r1) as [|r2 v2|x|x] eqn:E2; try discriminate. injection E as <- <-.
      destruct (IHn _ _ _ _ E1 Hc Hs) as (m1 & -> & A1 & B1). destruct (IHn (GLoop kk e) _ _ _ E2 Hc Hs) as (m2 & -> & A2 & B2).
      exists (m1 ++ m2). split; [apply app_assoc|]. split; [apply good_vcons; assumption|]. intros d x Hx. pose proof (B2 _ _ Hx) as G2. rewrite src_eq in Hx. destruct (src d e) as [sa|] eqn:Ea; [|discriminate]. injection Hx as <-.
      apply gen_star; [eapply B1, Ea|exact G2].
    + injection E as <- <-. exists []. split; [reflexivity|]. split; [apply good_nil|]. intros d y Hx. rewrite src_eq in Hx. destruct (src d e) as [sa|] eqn:Ea; [|discriminate]. injection Hx as <-. constructor.
  - cbn [chk] in Hc. destruct (grun crule n e i) as [|r1 v1|x|x] eqn:E1; try discriminate. destruct (grun crule n (GLoop KMany1 e) r1) as [|r2 v2|x|x] eqn:E2; try discriminate. injection E as <- <-.
    destruct (IHn _ _ _ _ E1 Hc Hs) as (m1 & -> & A1 & B1). destruct (IHn (GLoop KMany1 e) _ _ _ E2 Hc Hs) as (m2 & -> & A2 & B2).
    exists (m1 ++ m2). split; [apply app_assoc|]. split; [apply good_vcons; assumption|]. intros d x Hx. rewrite src_eq in Hx. destruct (src d e) as [sa|] eqn:Ea; [|discriminate]. injection Hx as <-.
    constructor; [eapply B1, Ea|]. apply (B2 d). rewrite src_eq, Ea. reflexivity.
  - cbn [chk] in Hc. apply andb_true_iff in Hc as [Hc1 Hc2]. destruct (grun crule n g i) as [|r1 v1|x|x] eqn:E1; try discriminate.
    + injection E as <- <-. destruct (IHn _ _ _ _ E1 Hc2 H0) as (m & -> & A & B). exists m. split; [reflexivity|]. split.
      * rewrite <- (app_nil_r m). change (m ++ []) with (List.concat [[]; m]). apply good_pass. constructor; [apply good_nil|]. constructor; [exact A|constructor].
      * intros d x Hx. rewrite src_eq in Hx. destruct (src d f) as [sa|] eqn:Ea; [|discriminate]. destruct (src d g) as [sb|] eqn:Eb; [|discriminate]. injection Hx as <-. change m with ([] ++ m). constructor; [constructor|eapply B, Eb].
    + destruct (grun crule n f i) as [|r2 v2|x'|x'] eqn:E2; try discriminate. destruct (same_len r2 i); [discriminate|].
      destruct (grun crule n (GManyTill f g) r2) as [|r3 v3|x'|x'] eqn:E3; try discriminate. injection E as <- <-.
      destruct (IHn _ _ _ _ E2 Hc1 H) as (m1 & -> & A1 & B1).
      assert (Hc' : chk (GManyTill f g) = true) by (cbn [chk]; rewrite Hc1, Hc2; reflexivity). assert (Hs' : span_names (GManyTill f g) = true) by (cbn [span_names]; rewrite H, H0; reflexivity).
      destruct (IHn (GManyTill f g) _ _ _ E3 Hc' Hs') as (m2 & -> & A2 & B2).
      exists (m1 ++ m2). split; [apply app_assoc|]. split.
      * assert (T : exists l y, v3 = VPass [VPass l; y]) by (apply run_derives in E3 as (? & _ & E3); eapply till_shape, E3). destruct T as (l & y & ->).
        inversion A2 as [| | |fs ms HF]; subst. inversion HF as [|? ma ? ? Ga Hr1]; subst. inversion Hr1 as [|? mb ? ? Gb Hr2]; subst. inversion Hr2; subst.
        inversion Ga as [| | |fs2 ms2 HF2]; subst. cbn [List.concat]. rewrite app_assoc. change (m1 ++ List.concat ms2) with (List.concat (m1 :: ms2)).
        change (List.concat (m1 :: ms2) ++ mb ++ []) with (List.concat [List.concat (m1 :: ms2); mb]). apply good_pass. constructor; [apply good_pass; constructor; assumption|]. constructor; [exact Gb|constructor].
      * intros d y Hx. pose proof (B2 _ _ Hx) as G2. rewrite src_eq in Hx. destruct (src d f) as [sa|] eqn:Ea; [|discriminate]. destruct (src d g) as [sb|] eqn:Eb; [|discriminate]. injection Hx as <-.
        inversion G2 as [| | | |? ? k1 k2 Ga Gb| | | | | |]; subst. rewrite app_assoc. constructor; [apply gen_star; [eapply B1, Ea|exact Ga]|exact Gb].
  - cbn [chk] in Hc. destruct (grun crule n p i) as [|r1 v1|x|x] eqn:E1; try discriminate. destruct (IHn _ _ _ _ E Hc H0) as (m & -> & A & B). exists m. split; [reflexivity|]. split; [exact A|]. intros d y Hx. rewrite src_eq in Hx. eapply B, Hx.
  - cbn [chk] in Hc. destruct (grun crule n e i) as [|r1 v1|x|x] eqn:E1; try discriminate. destruct (grun crule n p r1) as [|r2 v2|x|x] eqn:E2; try discriminate. injection E as <- <-.
    destruct (IHn _ _ _ _ E1 Hc H) as (m & -> & A & B). exists m. split; [reflexivity|]. split; [exact A|]. intros d y Hx. rewrite src_eq in Hx. eapply B, Hx.
  - cbn [chk] in Hc. destruct (grun crule n e i) as [|r1 v1|x|x] eqn:E1; try discriminate. injection E as <- <-.
    destruct (IHn _ _ _ _ E1 Hc Hs) as (m & -> & A & B). exists m. split; [reflexivity|]. split; [exact A|]. intros d y Hx. rewrite src_eq in Hx. eapply B, Hx.
  - cbn [chk] in Hc. destruct (grun crule n e i) as [|r1 v1|x|x] eqn:E1; try discriminate. destruct (same_len r1 i); [discriminate|]. injection E as <- <-.
    destruct (IHn _ _ _ _ E1 Hc Hs) as (m & -> & A & B). exists m. split; [reflexivity|]. split; [exact A|]. intros d y Hx. rewrite src_eq in Hx. eapply B, Hx.
  - destruct (grun crule n e i) as [|r1 v1|x|x] eqn:E1; try discriminate. destruct (holds c v1) eqn:Eh; [|discriminate]. injection E as <- <-.
    assert (Hplain : chk (GPost c e) = chk e -> (forall d, src d (GPost c e) = src d e) -> whole (GPost c e) i r1 v1).
    { intros Ec Es. rewrite Ec in Hc. destruct (IHn _ _ _ _ E1 Hc Hs) as (m & -> & A & B). exists m. split; [reflexivity|]. split; [exact A|]. intros d y Hx. rewrite Es in Hx. eapply B, Hx. }
    destruct c as [|l].
    + assert (Hd : (exists nm a, e = GNode nm a) \/ chk (GPost PSomeField e) = chk e) by (destruct e; eauto). destruct Hd as [(nm & a & ->)|Hd]; [|apply Hplain; [exact Hd|intros; rewrite src_eq; reflexivity]].
      clear Hplain. cbn [chk] in Hc. apply andb_true_iff in Hc as [Hk Hc]. destruct n as [|n]; [discriminate|]. rewrite grun_S in E1. cbn [gstep] in E1.
      destruct (grun crule n a i) as [|r2 v2|x|x] eqn:E2; try discriminate. injection E1 as <- <-. cbn [span_names] in Hs. cbn [holds] in Eh.
      destruct (IH n ltac:(lia) _ _ _ _ E2 Hc Hs) as (m & -> & A & B).
      assert (G : forall s, src_some D a = Some s -> generates s m).
      { intros s Hsrc. destruct (some_run (S n) (fun k Hk => IH k ltac:(lia)) a n _ _ _ D s ltac:(lia) E2 Hc Hs Hsrc Eh) as (m' & Em & G). apply same_m in Em as <-. exact G. }
      destruct (node_whole nm v2 m (src_some D a) A Hk G) as [N1 N2]. exists m. split; [reflexivity|]. split; [exact N1|].
      intros d y Hx. rewrite src_eq in Hx. rewrite src_eq in Hx. destruct (construct nm) as [r0|] eqn:Er; [injection Hx as <-; apply N2; reflexivity|eapply B, Hx].
    + assert (Hd : (exists nm, e = GNode nm (GCons GAny GNil)) \/ forall d, src d (GPost (PNotSel l) e) = src d e).
      { destruct e; try (right; intros; rewrite src_eq; reflexivity). destruct e; try (right; intros; rewrite src_eq; reflexivity). destruct e1; try (right; intros; rewrite src_eq; reflexivity). destruct e2; try (right; intros; rewrite src_eq; reflexivity). left. eauto. }
      destruct Hd as [(nm & ->)|Hd]; [|apply Hplain; [reflexivity|exact Hd]]. clear Hplain.
      destruct (IHn _ _ _ _ E1 Hc Hs) as (m & -> & A & B). exists m. split; [reflexivity|]. split; [exact A|]. intros d y Hx. rewrite src_eq in Hx. destruct (construct nm) eqn:Er; [discriminate|]. injection Hx as <-.
      assert (G0 : generates (Seq (AnyBut []) Eps) m) by (apply (B d); rewrite src_eq, Er, src_eq, !src_eq; reflexivity).
      inversion G0 as [| | | |? ? k1 k2 Ga Gb| | | | | |]; subst. inversion Gb; subst. inversion Ga; subst. rewrite app_nil_r in *.
      cbn [holds] in Eh. destruct v1 as [| |nm1 fs1|]; try discriminate. destruct fs1 as [|w fs1]; [discriminate|]. destruct w as [t0| | |]; try discriminate. destruct fs1; [|discriminate].
      inversion A as [| |? ? ms HF Hk|]; subst. inversion HF as [|? ma ? ? Ga1 Hr1]; subst. inversion Ga1; subst. inversion Hr1; subst. cbn [List.concat app] in *. 
      match goal with E : [?x] = [?y] |- _ => injection E as -> end || idtac.
      constructor. intros Hin. assert (Hx : existsb (sel_eqb (selmaho t)) l = true) by (apply existsb_exists; eexists; split; [exact Hin|apply sel_eqb_refl]). rewrite Hx in Eh. discriminate.
  - cbn [chk] in Hc. apply andb_true_iff in Hc as [Hk Hc]. destruct (grun crule n e i) as [|r1 v1|x|x] eqn:E1; try discriminate. injection E as <- <-.
    destruct (IHn _ _ _ _ E1 Hc Hs) as (m & -> & A & B). destruct (node_whole nm v1 m (src D e) A Hk (B D)) as [N1 N2]. exists m. split; [reflexivity|]. split; [exact N1|].
    intros d y Hx. rewrite src_eq in Hx. destruct (construct nm) as [r0|] eqn:Er; [injection Hx as <-; apply N2; reflexivity|eapply B, Hx].
Qed.

(** * Through the tree *)
Lemma good_covers v m : good v m -> covers v m.
Proof.
  unfold covers. revert v m. fix F 3. intros v m H. destruct H as [t|nm t H|nm fs ms H _|fs ms H]; cbn [leaves].
  - constructor; [left; reflexivity|constructor].
  - constructor; [right; eexists; split; [exact H|reflexivity]|constructor].
  - induction H as [|x y l l' Hx Hl IHl]; cbn [flat_map List.concat]; [constructor|apply Forall2_app; [apply F, Hx|exact IHl]].
  - induction H as [|x y l l' Hx Hl IHl]; cbn [flat_map List.concat]; [constructor|apply Forall2_app; [apply F, Hx|exact IHl]].
Qed.
Lemma good_invoke v m : good v m -> exists ms, Forall2 good (invoke_with_self v) ms /\ m = List.concat ms.
Proof.
  revert v m. fix F 3. intros v m H. destruct H as [t|nm t H|nm fs ms H K|fs ms H].
  - exists [[t]]. split; [constructor; [constructor|constructor]|reflexivity].
  - exists [[t]]. split; [constructor; [apply good_span; exact H|constructor]|reflexivity].
  - exists [List.concat ms]. split; [constructor; [apply good_node; assumption|constructor]|cbn; symmetry; apply app_nil_r].
  - cbn [invoke_with_self]. clear - F H. induction H as [|x y l l' Hx Hl IHl]; [exists []; split; [constructor|reflexivity]|].
    destruct (F x y Hx) as (m1 & A1 & ->). destruct IHl as (m2 & A2 & E2). exists (m1 ++ m2). split; [cbn [flat_map]; apply Forall2_app; assumption|]. cbn [List.concat]. rewrite E2, concat_app. reflexivity.
Qed.
Lemma good_children v m : good v m -> children v <> [] -> exists ms, Forall2 good (children v) ms /\ m = List.concat ms.
Proof.
  intros H Hc. destruct H as [t|nm t H|nm fs ms H _|fs ms H]; try (destruct (Hc eq_refl)); clear Hc; cbn [children].
  - destruct (good_invoke (VPass fs) (List.concat ms) (good_pass _ _ H)) as (ms' & A & E). exists ms'. split; assumption.
  - destruct (good_invoke (VPass fs) (List.concat ms) (good_pass _ _ H)) as (ms' & A & E). exists ms'. split; assumption.
Qed.
Lemma app_inv_len {A} (a : list A) : forall b c d, a ++ b = c ++ d -> List.length a = List.length c -> a = c /\ b = d.
Proof. induction a as [|x a IH]; intros b [|y c] d E L; try discriminate; [auto|]. injection E as -> E. apply IH in E as [-> ->]; [auto|]. cbn in L. lia. Qed.
Lemma part_good v p u m q : part_of v p u m q -> good v (p ++ m ++ q) -> good u m.
Proof.
  induction 1 as [u m H|v a c b pa pb p u m q E Fa Fb HP IH]; intros G.
  - rewrite app_nil_r in G. exact G.
  - apply IH. destruct (good_children _ _ G) as (ms & HF & Em); [rewrite E; destruct a; discriminate|]. rewrite E in HF.
    apply Forall2_app_inv_l in HF as (ma & mb & Ha & Hb & ->). inversion Hb as [|? mc ? mb' Hc Hb']; subst. rewrite concat_app in Em. cbn [List.concat] in Em.
    assert (W : forall l ms, Forall2 good l ms -> Forall2 stands_for l ms) by (induction 1; constructor; [apply covers_stands, good_covers; assumption|assumption]).
    pose proof (stand_lengths _ _ _ Fa (W _ _ Ha)) as La. pose proof (stand_lengths _ _ _ Fb (W _ _ Hb')) as Lb.
    assert (E1 : p ++ m ++ q = mc).
    { replace ((List.concat pa ++ p) ++ m ++ q ++ List.concat pb) with (List.concat pa ++ ((p ++ m ++ q) ++ List.concat pb)) in Em by (rewrite <- !app_assoc; reflexivity).
      apply app_inv_len in Em as [_ Em]; [|exact La]. assert (L : List.length (p ++ m ++ q) = List.length mc) by (apply (f_equal (@List.length token)) in Em; rewrite !app_length in *; lia).
      apply app_inv_len in Em as [Em _]; [exact Em|exact L]. }
    rewrite E1. exact Hc.
Qed.
Lemma append_prefix a b : String.prefix a (a ++ b) = true.
Proof. induction a as [|x a IH]; [destruct b; reflexivity|]. cbn [append String.prefix]. destruct (Ascii.ascii_dec x x); [exact IH|congruence]. Qed.
Lemma kind_has u k : of_kind u k -> has_kind k (node_name u) = true.
Proof.
  unfold has_kind. intros [->|(w & ->)]; [rewrite String.eqb_refl; reflexivity|]. rewrite <- append_assoc, append_prefix. apply orb_true_r.
Qed.
(** words are no constructs *)
Lemma leaf_names : forallb (fun p => negb (has_kind (fst p) "") && negb (has_kind (fst p) "ZoiDelimiter") && negb (has_kind (fst p) "ZoiText") && forallb (fun s => negb (has_kind (fst p) (as_repr s))) all_selmaho)%string constructs = true.
Proof. vm_compute. reflexivity. Qed.
Lemma good_kind u m k r : good u m -> of_kind u k -> In (k, r) constructs -> generates (Ref r) m.
Proof.
  intros G Hk Hin. apply kind_has in Hk. pose proof leaf_names as L. rewrite forallb_forall in L. specialize (L _ Hin). cbn [fst] in L. apply andb_true_iff in L as [L L3]. apply andb_true_iff in L as [L1 L2]. apply andb_true_iff in L1 as [L0 L1].
  destruct G as [t|nm t H|nm fs ms H K|fs ms H]; cbn [node_name] in Hk.
  - rewrite forallb_forall in L3. specialize (L3 _ (CstAuto.all_selmaho_in (selmaho t))). rewrite Hk in L3. discriminate.
  - destruct H as [<-|[<-|[]]]; [rewrite Hk in L1|rewrite Hk in L2]; discriminate.
  - eapply K; eassumption.
  - rewrite Hk in L0. discriminate.
Qed.

(** * A certified recogniser, to show what the grammar does not generate *)
Section Refute.
Context (ws : list Selmaho) (T : rule -> nat -> list nat).
Definition everywhere : list nat := seq 0 (S (List.length ws)).
Definition union (l l' : list nat) : list nat := fold_right (fun x acc => if existsb (Nat.eqb x) acc then acc else x :: acc) l' l.
Definition sub (l l' : list nat) : bool := forallb (fun x => existsb (Nat.eqb x) l') l.
Fixpoint sat (f : nat -> list nat) (n : nat) (acc : list nat) : list nat := match n with O => acc | S n => sat f n (union (flat_map f acc) acc) end.
Definition closure (f : nat -> list nat) (i : nat) : list nat :=
  let x := sat f (S (List.length ws)) [i] in if existsb (Nat.eqb i) x && forallb (fun j => sub (f j) x) x then x else everywhere.
Fixpoint ends (e : ebnf) (i : nat) : list nat :=
  match e with
  | Tok s => match nth_error ws i with Some w => if sel_eqb w s then [S i] else [] | None => [] end
  | AnyBut l => match nth_error ws i with Some w => if existsb (sel_eqb w) l then [] else [S i] | None => [] end
  | Ref r => T r i
  | Eps => [i]
  | Seq a b => union (flat_map (ends b) (ends a i)) []
  | Alt a b => union (ends a i) (ends b i)
  | Opt a => union (ends a i) [i]
  | Star a => closure (ends a) i
  end.
Lemma eqb_in x l : existsb (Nat.eqb x) l = true <-> In x l.
Proof. rewrite existsb_exists. split; [intros (y & H & E); apply Nat.eqb_eq in E as ->; exact H|intros H; exists x; split; [exact H|apply Nat.eqb_refl]]. Qed.
Lemma union_in x l l' : In x (union l l') <-> In x l \/ In x l'.
Proof.
  induction l as [|y l IH]; cbn [union fold_right]; [cbn; tauto|]. fold (union l l'). destruct (existsb (Nat.eqb y) (union l l')) eqn:E.
  - apply eqb_in in E. cbn [In]. rewrite IH. split; [tauto|]. intros [[->|H]|H]; [apply IH in E; tauto|tauto|tauto].
  - cbn [In]. rewrite IH. tauto.
Qed.
Lemma sub_in l l' : sub l l' = true -> forall x, In x l -> In x l'.
Proof. unfold sub. rewrite forallb_forall. intros H x Hx. apply eqb_in, H, Hx. Qed.
Lemma closure_in f i j k : (k <= List.length ws)%nat -> In j (closure f i) -> In k (f j) -> In k (closure f i).
Proof.
  unfold closure. cbv zeta. destruct (existsb (Nat.eqb i) _ && _) eqn:E; intros Hk Hj Hf; [|apply in_seq; lia]. apply andb_true_iff in E as [_ E]. rewrite forallb_forall in E. eapply sub_in; [apply E, Hj|exact Hf].
Qed.
Lemma closure_here f i : (i <= List.length ws)%nat -> In i (closure f i).
Proof. unfold closure. cbv zeta. destruct (existsb (Nat.eqb i) _ && _) eqn:E; intros Hi; [|apply in_seq; lia]. apply andb_true_iff in E as [E _]. apply eqb_in, E. Qed.

Definition closed : bool := forallb (fun r => forallb (fun i => sub (ends (body r) i) (T r i)) everywhere) all_rules.
Lemma all_rules_in r : In r all_rules.
Proof. destruct r; vm_compute; tauto. Qed.
Lemma ends_ok : closed = true -> forall e m, generates e m ->
  (forall p q, ws = p ++ map selmaho m ++ q -> In (List.length p + List.length m)%nat (ends e (List.length p))) /\
  match e with Star a => forall i p q, In (List.length p) (closure (ends a) i) -> ws = p ++ map selmaho m ++ q -> In (List.length p + List.length m)%nat (closure (ends a) i) | _ => True end.
Proof.
  intros Hc. assert (R : forall r i j, (i <= List.length ws)%nat -> In j (ends (body r) i) -> In j (T r i)).
  { intros r i j Hi Hj. unfold closed in Hc. rewrite forallb_forall in Hc. specialize (Hc r (all_rules_in r)). cbv beta in Hc. rewrite forallb_forall in Hc. eapply sub_in; [apply Hc, in_seq; lia|exact Hj]. }
  induction 1 as [s t Ht|l t Ht|r m G [IH _]|  |a b m1 m2 G1 [IH1 _] G2 [IH2 _]|a b m G [IH _]|a b m G [IH _]|a|a m G [IH _]|a|a m1 m2 G1 [IH1 _] G2 [_ IH2]];
    (split; [intros p q Hw; cbn [ends]|try exact I]).
  - rewrite Hw, nth_error_app2, Nat.sub_diag by lia. cbn. rewrite Ht. rewrite sel_eqb_refl. left. lia.
  - rewrite Hw, nth_error_app2, Nat.sub_diag by lia. cbn. destruct (existsb (sel_eqb (selmaho t)) l) eqn:E; [|left; lia]. exfalso. apply existsb_exists in E as (x & Hx & E). apply sel_eqb_eq in E as <-. exact (Ht Hx).
  - apply R; [rewrite Hw, app_length; lia|]. eapply IH, Hw.
  - left. cbn. lia.
  - rewrite map_app, <- app_assoc in Hw. apply union_in. left. apply in_flat_map. exists (List.length p + List.length m1)%nat. split; [eapply IH1, Hw|].
    pose proof (IH2 (p ++ map selmaho m1) q) as F2. rewrite !app_length, map_length, <- app_assoc in F2. rewrite app_length, Nat.add_assoc. apply F2, Hw.
  - apply union_in. left. eapply IH, Hw.
  - apply union_in. right. eapply IH, Hw.
  - apply union_in. right. left. cbn. lia.
  - apply union_in. left. eapply IH, Hw.
  - cbn [List.length]. rewrite Nat.add_0_r. apply closure_here. rewrite Hw, app_length. lia.
  - intros i p q Hi Hw. cbn [List.length]. rewrite Nat.add_0_r. exact Hi.
  - rewrite map_app, <- app_assoc in Hw. assert (Hi : (List.length p + List.length m1 <= List.length ws)%nat) by (rewrite Hw, !app_length, map_length; lia).
    pose proof (IH2 (List.length p) (p ++ map selmaho m1) q) as F2. rewrite !app_length, map_length, <- app_assoc in F2. rewrite app_length, Nat.add_assoc. apply F2; [|exact Hw].
    eapply closure_in; [exact Hi|apply closure_here; lia|eapply IH1, Hw].
  - intros i p q Hj Hw. rewrite map_app, <- app_assoc in Hw. assert (Hi : (List.length p + List.length m1 <= List.length ws)%nat) by (rewrite Hw, !app_length, map_length; lia).
    pose proof (IH2 i (p ++ map selmaho m1) q) as F2. rewrite !app_length, map_length, <- app_assoc in F2. rewrite app_length, Nat.add_assoc. apply F2; [|exact Hw].
    eapply closure_in; [exact Hi|exact Hj|eapply IH1, Hw].
Qed.
End Refute.

Fixpoint index (r : rule) (l : list rule) : nat := match l with [] => O | x :: l => if rule_eqb r x then O else S (index r l) end.
Definition tab (t : list (list (list nat))) (r : rule) (i : nat) : list nat := nth i (nth (index r all_rules) t []) [].
Definition grow (ws : list Selmaho) (t : list (list (list nat))) : list (list (list nat)) :=
  map (fun r => map (fun i => union (ends ws (tab t) (body r) i) (tab t r i)) (everywhere ws)) all_rules.
Definition entries (t : list (list (list nat))) : nat := List.length (List.concat (List.concat t)).
Fixpoint grown (ws : list Selmaho) (n : nat) (t : list (list (list nat))) : list (list (list nat)) :=
  match n with O => t | S n => let t' := grow ws t in if Nat.eqb (entries t) (entries t') then t' else grown ws n t' end.
Definition refuted (r : rule) (ws : list Selmaho) : bool :=
  let t := grown ws 60 [] in closed ws (tab t) && negb (existsb (Nat.eqb (List.length ws)) (tab t r O)).
Lemma refuted_ok r ws toks : refuted r ws = true -> map selmaho toks = ws -> ~ generates (Ref r) toks.
Proof.
  unfold refuted. cbv zeta. generalize (tab (grown ws 60 [])). intros t H <- G. apply andb_true_iff in H as [H1 H2].
  destruct (ends_ok _ _ H1 _ _ G) as [E _]. specialize (E [] []). rewrite app_nil_r in E. specialize (E eq_refl). cbn [List.length Nat.add ends] in E.
  apply eqb_in in E. rewrite map_length in H2. rewrite E in H2. discriminate.
Qed.

(** CstGen.v -- a certified checker: the parser accepts everything a given
    context-free grammar generates. *)
From Verif Require Import Base Selmaho Lex Cst CstRules CstApi CstMeta CstTotal SpecCst CstTree CstBalance CstThms CstSimp SpecGen.
From Coq Require Import Lia Arith.

(** [andb], [existsb] and [forallb] that stop early under call by value *)
Notation "a &&& b" := (if a then b else false) (at level 40, left associativity).
Lemma lazy_and_iff (a b : bool) : a &&& b = true <-> a = true /\ b = true.
Proof. destruct a, b; split; (intros [H1 H2] || intros H); auto; discriminate. Qed.
Fixpoint anyb {A} (f : A -> bool) (l : list A) : bool := match l with [] => false | x :: l => if f x then true else anyb f l end.
Fixpoint allb {A} (f : A -> bool) (l : list A) : bool := match l with [] => true | x :: l => if f x then allb f l else false end.
Lemma any_exists {A} (f : A -> bool) l : anyb f l = true <-> exists x, In x l /\ f x = true.
Proof. rewrite <- existsb_exists. induction l as [|x l IH]; [reflexivity|]. cbn. destruct (f x); [split; reflexivity|exact IH]. Qed.
Lemma all_forall {A} (f : A -> bool) l : allb f l = true <-> forall x, In x l -> f x = true.
Proof. rewrite <- forallb_forall. induction l as [|x l IH]; [reflexivity|]. cbn. destruct (f x); [exact IH|split; discriminate]. Qed.
Fixpoint rx_eqb (a b : rx) : bool :=
  match a, b with
  | XBad, XBad | XFail, XFail | XNil, XNil => true
  | XTok s, XTok t => sel_eqb s t
  | XCall x, XCall y => Nat.eqb (cnt_idx x) (cnt_idx y)
  | XSeq a b, XSeq a' b' | XAlt a b, XAlt a' b' | XNotThen a b, XNotThen a' b' | XNotAfter a b, XNotAfter a' b' | XTill a b, XTill a' b' => rx_eqb a a' &&& rx_eqb b b'
  | XOpt a, XOpt a' | XLoop a, XLoop a' | XConsume a, XConsume a' | XCut a, XCut a' => rx_eqb a a'
  | _, _ => false
  end.
Lemma cnt_idx_eq x y : Nat.eqb (cnt_idx x) (cnt_idx y) = true -> x = y.
Proof.
  rewrite Nat.eqb_eq. intros E. pose proof (all_cnts_nth x) as H1. pose proof (all_cnts_nth y) as H2. rewrite E in H1. congruence.
Qed.
Lemma rx_eqb_eq a : forall b, rx_eqb a b = true -> a = b.
Proof.
  induction a; intros b H; destruct b; try discriminate H; cbn in H; try reflexivity;
    try (apply lazy_and_iff in H as [H1 H2]); f_equal; auto using cnt_idx_eq, sel_eqb_eq.
Qed.

(** What is known about the rest of the input: its first words, and possibly that nothing follows them. *)
Definition look : Type := list Selmaho * bool.
Fixpoint l_eqb (a b : list Selmaho) : bool := match a, b with [], [] => true | x :: a, y :: b => sel_eqb x y &&& l_eqb a b | _, _ => false end.
Fixpoint l_pre (a b : list Selmaho) : bool := match a, b with [], _ => true | x :: a, y :: b => sel_eqb x y &&& l_pre a b | _, _ => false end.
Definition fits (o : look) (i : list token) : Prop := if snd o then map selmaho i = fst o else exists r, map selmaho i = fst o ++ r.
(** [o] says at least as much as [o'] *)
Definition le_look (o o' : look) : bool := if snd o' then snd o &&& l_eqb (fst o') (fst o) else l_pre (fst o') (fst o).
Definition fits_one (l : list look) (i : list token) : Prop := exists o, In o l /\ fits o i.
Lemma l_eqb_eq a : forall b, l_eqb a b = true -> a = b.
Proof. induction a as [|x a IH]; intros [|y b] H; try discriminate; [reflexivity|]. cbn in H. apply lazy_and_iff in H as [H1 H2]. f_equal; auto using sel_eqb_eq. Qed.
Lemma l_pre_eq a : forall b, l_pre a b = true -> exists r, b = a ++ r.
Proof.
  induction a as [|x a IH]; intros b H; [exists b; reflexivity|]. destruct b as [|y b]; [discriminate|]. cbn in H. apply lazy_and_iff in H as [H1 H2].
  apply sel_eqb_eq in H1 as ->. destruct (IH _ H2) as (r & ->). exists r. reflexivity.
Qed.
Lemma le_fits o o' i : le_look o o' = true -> fits o i -> fits o' i.
Proof.
  destruct o as [l e], o' as [l' e']. unfold le_look, fits. cbn. destruct e'; intros H F.
  - apply lazy_and_iff in H as [-> H]. apply l_eqb_eq in H as ->. exact F.
  - apply l_pre_eq in H as (r & ->). destruct e; [exists r; exact F|]. destruct F as (r' & ->). exists (r ++ r'). rewrite app_assoc. reflexivity.
Qed.
Definition subset (a b : list look) : bool := allb (fun o => anyb (le_look o) b) a.
Lemma subset_fits a b i : subset a b = true -> fits_one a i -> fits_one b i.
Proof.
  unfold subset. rewrite all_forall. intros H (o & Ho & F). specialize (H o Ho). apply any_exists in H as (o' & Ho' & L). exists o'. split; [exact Ho'|]. eapply le_fits; eassumption.
Qed.
(** at most [k] words *)
Fixpoint cut (k : nat) (l : list Selmaho) (e : bool) : look :=
  match k, l with
  | _, [] => ([], e)
  | O, _ => ([], false)
  | S k, x :: l => let o := cut k l e in (x :: fst o, snd o)
  end.
Lemma cut_fits k : forall l e i, fits (l, e) i -> fits (cut k l e) i.
Proof.
  induction k as [|k IH]; intros [|x l] e i F; [exact F|exists (map selmaho i); reflexivity|exact F|].
  destruct i as [|t i]; [destruct e; [discriminate F|destruct F as (r & F); discriminate F]|].
  assert (E : selmaho t = x /\ fits (l, e) i).
  { destruct e; unfold fits in *; cbn in *; [injection F as -> F; auto|]. destruct F as (r & F). injection F as -> F. split; [reflexivity|exists r; exact F]. }
  destruct E as [<- E]. apply IH in E. cbn. destruct (cut k l e) as [l' e']. unfold fits in *. cbn in *. destruct e'; [f_equal; exact E|]. destruct E as (r & E). exists r. f_equal. exact E.
Qed.
Definition may (s : Selmaho) (o : look) : bool := match o with (x :: _, _) => sel_eqb x s | ([], e) => negb e end.
Lemma may_not s l i : anyb (may s) l = false -> fits_one l i -> forall t r, i = t :: r -> selmaho t <> s.
Proof.
  intros H ((lo, e) & Ho & F) t r -> <-. assert (E : may (selmaho t) (lo, e) = false).
  { destruct (may (selmaho t) (lo, e)) eqn:E; [|reflexivity]. enough (anyb (may (selmaho t)) l = true) by congruence. apply any_exists. eauto. }
  destruct lo as [|x lo]; cbn in E.
  - destruct e; [|discriminate]. discriminate F.
  - assert (x = selmaho t) as ->; [|rewrite sel_eqb_refl in E; discriminate].
    unfold fits in F. cbn in F. destruct e; [injection F as F _; auto|]. destruct F as (? & F). injection F as F _. auto.
Qed.

(** [V e i x j r]: when [e] runs on [i] and succeeds, its result contains that of rule [x], run on [j] and leaving [r]. *)
Section Visit.
Context (tbl : cnt -> rx).
Notation X := (X tbl).
Inductive V : rx -> list token -> cnt -> list token -> list token -> Prop :=
| v_call x i r : X (tbl x) i (Ok r) -> V (XCall x) i x i r
| v_in x i y j r : V (tbl x) i y j r -> V (XCall x) i y j r
| v_seq_l a b i y j r : V a i y j r -> V (XSeq a b) i y j r
| v_seq_r a b i k y j r : X a i (Ok k) -> V b k y j r -> V (XSeq a b) i y j r
| v_alt_l a b i k y j r : X a i (Ok k) -> V a i y j r -> V (XAlt a b) i y j r
| v_alt_r a b i y j r : X a i Er -> V b i y j r -> V (XAlt a b) i y j r
| v_opt a i k y j r : X a i (Ok k) -> V a i y j r -> V (XOpt a) i y j r
| v_loop_first a i k y j r : X a i (Ok k) -> List.length k <> List.length i -> V a i y j r -> V (XLoop a) i y j r
| v_loop_more a i k y j r : X a i (Ok k) -> List.length k <> List.length i -> V (XLoop a) k y j r -> V (XLoop a) i y j r
| v_nt p a i y j r : X p i Er -> V a i y j r -> V (XNotThen p a) i y j r
| v_na a p i y j r : V a i y j r -> V (XNotAfter a p) i y j r
| v_co a i y j r : V a i y j r -> V (XConsume a) i y j r
| v_cut a i y j r : V a i y j r -> V (XCut a) i y j r.
End Visit.

Section Gen.
Context {nt : Type} (prods : nt -> list (list (sym nt))).
Notation gens := (gens prods).
Context (fs : nt -> list look) (fol : nt -> list look) (deep : list Selmaho) (dk : nat) (ex : nt -> rx).
Context (tbl : cnt -> rx).
Notation X := (X tbl).

(** derivations of bounded height *)
Inductive gn : nat -> list (sym nt) -> list token -> Prop :=
| gn_nil h : gn h [] []
| gn_t h s t w m : selmaho t = s -> gn h w m -> gn h (Word s :: w) (t :: m)
| gn_n h a p w m1 m2 : In p (prods a) -> gn h p m1 -> gn (S h) w m2 -> gn (S h) (Part a :: w) (m1 ++ m2).
Lemma gn_mono h w m : gn h w m -> forall h', (h <= h')%nat -> gn h' w m.
Proof.
  induction 1; intros h' Hh; [constructor|constructor; auto|]. destruct h' as [|h']; [lia|]. econstructor; [eassumption|apply IHgn1; lia|apply IHgn2; lia].
Qed.
Lemma gens_gn w m : gens w m -> exists h, gn h w m.
Proof.
  induction 1 as [|s t w m E _ (h & IH)|a p w m1 m2 Hp _ (h1 & IH1) _ (h2 & IH2)].
  - exists O. constructor.
  - exists h. constructor; assumption.
  - exists (S (max h1 h2)). eapply gn_n; [exact Hp|eapply gn_mono; [exact IH1|lia]|eapply gn_mono; [exact IH2|lia]].
Qed.
Lemma gn_app h w1 : forall w2 m, gn h (w1 ++ w2) m -> exists m1 m2, m = m1 ++ m2 /\ gn h w1 m1 /\ gn h w2 m2.
Proof.
  induction w1 as [|[s|a] w1 IH]; intros w2 m H.
  - exists [], m. repeat split; [constructor|exact H].
  - cbn [app] in H. inversion H; subst. match goal with G : gn _ (w1 ++ w2) _ |- _ => destruct (IH _ _ G) as (m1 & m2 & -> & A & B) end.
    eexists (_ :: m1), m2. repeat split; [constructor; eauto|exact B].
  - cbn [app] in H. inversion H; subst. match goal with G : gn _ (w1 ++ w2) _ |- _ => destruct (IH _ _ G) as (n1 & n2 & -> & A & B) end.
    eexists (_ ++ n1), n2. repeat split; [rewrite app_assoc; reflexivity|econstructor; eauto|exact B].
Qed.
Lemma app_gn h w1 m1 : gn h w1 m1 -> forall w2 m2, gn h w2 m2 -> gn h (w1 ++ w2) (m1 ++ m2).
Proof. induction 1; intros w2 m2' H2; cbn [app]; [exact H2|constructor; auto|]. rewrite <- app_assoc. econstructor; eauto. Qed.

(** what a word can start with; in [fs], [true] marks a complete phrase *)
Definition full (o : look) : bool := match fst o with [] => false | _ => true end.
Definition app_look (l : list Selmaho) (o : look) : look := cut (S dk) (l ++ fst o) (snd o).
Fixpoint firsts (fo : list look) (w : list (sym nt)) : list look :=
  match w with
  | [] => fo
  | Word s :: w => if mem deep s then map (app_look [s]) (firsts fo w) else [([s], false)]
  | Part a :: w =>
      if anyb snd (fs a) then let r := firsts fo w in flat_map (fun o : look => if snd o then map (app_look (fst o)) r else [o]) (fs a)
      else fs a
  end.
Definition first_ok (all : list nt) : bool := allb (fun a => allb (fun p => subset (firsts [([], true)] p) (fs a)) (prods a)) all.
Definition solid (a : nt) : bool := allb full (fs a).

(** can it start with a word of class [s]? *)
Fixpoint may_start (s : Selmaho) (fo : list look) (w : list (sym nt)) : bool :=
  match w with
  | [] => anyb (may s) fo
  | Word s' :: _ => sel_eqb s' s
  | Part a :: w => anyb (fun o : look => match fst o with x :: _ => sel_eqb x s | [] => if snd o then may_start s fo w else true end) (fs a)
  end.

(** what is known about consumption: something, nothing, perhaps something *)
Inductive prog := Some1 | None0 | Maybe.
Definition seqp (p q : prog) : prog := match p, q with None0, None0 => None0 | Some1, _ | _, Some1 => Some1 | _, _ => Maybe end.
Definition joinp (p q : prog) : prog := match p, q with None0, None0 => None0 | Some1, Some1 => Some1 | _, _ => Maybe end.
Inductive sres := SOk (p : prog) (w : list (sym nt)) | SEr | Stuck.
Context (eqn : nt -> nt -> bool).
(** hints: where to look at the possible next words, and where to go through the productions of the first construct *)
Context (peek split : rx -> bool) (eager : rx -> nt -> bool).
(** constructs that are parsed as a whole, never through their productions *)
Context (whole : nt -> bool).
Fixpoint w_eqb (a b : list (sym nt)) : bool :=
  match a, b with
  | [], [] => true
  | Word s :: a, Word t :: b => sel_eqb s t &&& w_eqb a b
  | Part x :: a, Part y :: b => eqn x y &&& w_eqb a b
  | _, _ => false
  end.
Definition join (a b : sres) : sres :=
  match a, b with
  | SEr, SEr => SEr
  | SOk p w, SOk q v => if w_eqb w v then SOk (joinp p q) w else Stuck
  | _, _ => Stuck
  end.
Definition joins (l : list sres) : sres := match l with [] => Stuck | r :: l => fold_left join l r end.
Definition only_er (b : bool) (r : sres) : sres := if b then match r with SEr => SEr | _ => Stuck end else r.

Fixpoint run (fo : list look) (n : nat) (k : nat) (d : bool) (e : rx) (w : list (sym nt)) {struct n} : sres :=
  match n with
  | O => Stuck
  | S n =>
    if match w with Part a :: w' => rx_eqb e (ex a) &&& subset (firsts fo w') (fol a) | _ => false end
    then match w with Part a :: w' => SOk (if solid a then Some1 else Maybe) w' | _ => Stuck end
    else
      let r := if match k, w with S _, Part a :: _ => eager e a | _, _ => false end then Stuck else match e with
        | XFail => SEr
        | XNil => SOk None0 w
        | XTok s => match w with
            | Word s' :: w' => if sel_eqb s' s then SOk Some1 w' else SEr
            | _ => if may_start s fo w then Stuck else SEr
            end
        | XCall x => run fo n k d (tbl x) w
        | XSeq a b => match run fo n k false a w with SOk p w1 => match run fo n k false b w1 with SOk q w2 => SOk (seqp p q) w2 | r => r end | r => r end
        | XAlt a b => match run fo n k true a w with SEr => run fo n k false b w | r => r end
        | XOpt a => match run fo n k true a w with SEr => SOk None0 w | r => r end
        | XLoop a => match run fo n k true a w with
            | SEr => SOk None0 w
            | SOk Some1 w1 => match run fo n k false (XLoop a) w1 with SOk _ w2 => SOk Some1 w2 | _ => Stuck end
            | _ => Stuck
            end
        | XNotThen q a => match run fo n k true q w with SOk _ _ => SEr | SEr => run fo n k false a w | Stuck => Stuck end
        | XNotAfter a q => match run fo n k false a w with
            | SOk p w1 => match run fo n k true q w1 with SOk _ _ => SEr | SEr => SOk p w1 | Stuck => Stuck end
            | r => r
            end
        | XConsume a => match run fo n k false a w with SOk Some1 w1 => SOk Some1 w1 | SOk None0 _ => SEr | SEr => SEr | _ => Stuck end
        | XCut a => match run fo n k false a w with SOk p w1 => SOk p w1 | _ => Stuck end
        | _ => Stuck
        end in
      match r, k with
      | Stuck, S k =>
        if d &&& peek e &&& negb (match w with Part a :: _ => eager e a | _ => false end) &&& allb (fun o => match run [([], snd o)] n 0%nat false e (map Word (fst o)) with SEr => true | _ => false end) (firsts fo w) then SEr
        else if d &&& split e then match w with Part a :: w' => only_er (whole a) (joins (map (fun p => run fo n k true e (p ++ w')) (prods a))) | _ => Stuck end else Stuck
      | r, _ => r
      end
  end.

(** * Soundness *)
Context (all : list nt) (Hall : forall a, In a all) (Hfirst : first_ok all = true) (Heqn : forall x y, eqn x y = true -> x = y).

Lemma app_look_fits l m o i : map selmaho m = l -> fits o i -> fits (app_look l o) (m ++ i).
Proof.
  intros <- F. apply cut_fits. destruct o as [l e]. unfold fits in *. cbn in *. rewrite map_app. destruct e; [rewrite F; reflexivity|].
  destruct F as (r & F). exists r. rewrite F, app_assoc. reflexivity.
Qed.
Lemma first_prod a p : In p (prods a) -> subset (firsts [([], true)] p) (fs a) = true.
Proof. intros Hp. unfold first_ok in Hfirst. rewrite all_forall in Hfirst. specialize (Hfirst a (Hall a)). rewrite all_forall in Hfirst. exact (Hfirst p Hp). Qed.
Lemma head_first h w m : gn h w m -> forall fo rest, fits_one fo rest -> fits_one (firsts fo w) (m ++ rest).
Proof.
  induction 1 as [|h s t w m E _ IH|h a p w m1 m2 Hp _ IH1 _ IH2]; intros fo rest F; cbn [firsts].
  - exact F.
  - destruct (IH fo rest F) as (o & Ho & Fo). destruct (mem deep s).
    + exists (app_look [s] o). split; [apply in_map, Ho|]. apply (app_look_fits [s] [t]); [cbn; congruence|exact Fo].
    + exists ([s], false). split; [left; reflexivity|]. exists (map selmaho (m ++ rest)). cbn. congruence.
  - rewrite <- app_assoc. destruct (IH2 fo rest F) as (o2 & Ho2 & Fo2).
    assert (A : fits_one (fs a) (m1 ++ [])).
    { eapply subset_fits; [apply (first_prod _ _ Hp)|]. apply IH1. exists ([], true). split; [left; reflexivity|reflexivity]. }
    rewrite app_nil_r in A. destruct A as ((l, e) & Ho & Fo).
    assert (B : fits_one (flat_map (fun o : look => if snd o then map (app_look (fst o)) (firsts fo w) else [o]) (fs a)) (m1 ++ m2 ++ rest)).
    { destruct e.
      - exists (app_look l o2). split; [apply in_flat_map; exists (l, true); split; [exact Ho|]; cbn [snd fst]; apply in_map, Ho2|]. apply app_look_fits; [exact Fo|exact Fo2].
      - exists (l, false). split; [apply in_flat_map; exists (l, false); split; [exact Ho|left; reflexivity]|]. destruct Fo as (r & Fo). cbn in Fo.
        exists (r ++ map selmaho (m2 ++ rest)). rewrite map_app, Fo. cbn. rewrite app_assoc. reflexivity. }
    destruct (anyb snd (fs a)) eqn:E; [exact B|]. destruct e.
    + exfalso. enough (anyb snd (fs a) = true) by congruence. apply any_exists. exists (l, true). auto.
    + exists (l, false). split; [exact Ho|]. destruct Fo as (r & Fo). cbn in Fo. exists (r ++ map selmaho (m2 ++ rest)). rewrite map_app, Fo. cbn. rewrite app_assoc. reflexivity.
Qed.
Lemma may_start_ok h w m : gn h w m -> forall s fo rest, fits_one fo rest -> may_start s fo w = false -> forall t r, m ++ rest = t :: r -> selmaho t <> s.
Proof.
  induction 1 as [|h s0 t0 w m E _ IH|h a p w m1 m2 Hp G1 _ _ IH2]; intros s fo rest F Hs t r E'; cbn [may_start] in Hs.
  - eapply may_not; eassumption.
  - injection E' as -> _. intros <-. rewrite E, sel_eqb_refl in Hs. discriminate.
  - assert (A : fits_one (fs a) (m1 ++ [])).
    { eapply subset_fits; [apply (first_prod _ _ Hp)|]. eapply head_first; [exact G1|]. exists ([], true). split; [left; reflexivity|reflexivity]. }
    rewrite app_nil_r in A. destruct A as ((l, e) & Ho & Fo).
    assert (B : match l with x :: _ => sel_eqb x s | [] => if e then may_start s fo w else true end = false).
    { match goal with |- ?b = false => destruct b eqn:Eb; [|reflexivity] end. rewrite <- Hs. symmetry. apply any_exists. exists (l, e). split; [exact Ho|exact Eb]. }
    clear Hs. destruct l as [|x l].
    + destruct e; [|discriminate]. destruct m1; [|discriminate Fo]. eapply IH2; eassumption.
    + intros <-. destruct m1 as [|t1 m1]; [destruct e; [discriminate Fo|destruct Fo as (? & Fo); discriminate Fo]|].
      cbn in E'. injection E' as -> _. assert (x = selmaho t) as ->; [|rewrite sel_eqb_refl in B; discriminate].
      unfold fits in Fo. cbn in Fo. destruct e; [injection Fo as Fo _; auto|]. destruct Fo as (? & Fo). injection Fo as Fo _. auto.
Qed.
Lemma solid_ok h a p m : solid a = true -> In p (prods a) -> gn h p m -> m <> [].
Proof.
  intros Hs Hp Hg ->. unfold solid in Hs. rewrite all_forall in Hs.
  assert (A : fits_one (fs a) ([] ++ [])).
  { eapply subset_fits; [apply (first_prod _ _ Hp)|]. eapply head_first; [exact Hg|]. exists ([], true). split; [left; reflexivity|reflexivity]. }
  destruct A as ((l, e) & Ho & Fo). specialize (Hs _ Ho). unfold full in Hs. destruct l as [|x l]; [discriminate|]. destruct e; [discriminate Fo|destruct Fo as (r & Fo); discriminate Fo].
Qed.
Lemma gn_words h l : forall i, map selmaho i = l -> gn h (map Word l) i.
Proof. induction l as [|x l IH]; intros [|t i] E; try discriminate; [constructor|]. injection E as E1 E2. cbn. constructor; auto. Qed.
Lemma fits_split o i : fits o i -> exists m rest, i = m ++ rest /\ map selmaho m = fst o /\ fits_one [([], snd o)] rest.
Proof.
  destruct o as [l e]. revert i. unfold fits. cbn. destruct e.
  - intros i E. exists i, []. rewrite app_nil_r. repeat split; [exact E|]. exists ([], true). split; [left; reflexivity|reflexivity].
  - intros i (r & E). exists (firstn (List.length l) i), (skipn (List.length l) i). rewrite firstn_skipn. repeat split.
    + rewrite <- firstn_map, E, firstn_app, Nat.sub_diag, firstn_all, app_nil_r. reflexivity.
    + exists ([], false). split; [left; reflexivity|]. eexists. reflexivity.
Qed.

Lemma w_eqb_eq a : forall b, w_eqb a b = true -> a = b.
Proof.
  induction a as [|[s|x] a IH]; intros [|[t|y] b] H; try discriminate H; [reflexivity| |]; cbn in H; apply lazy_and_iff in H as [H1 H2]; f_equal; auto; f_equal; auto using sel_eqb_eq.
Qed.
Definition finep (p q : prog) : Prop := match p with Maybe => True | _ => p = q end.
Definition fine (r r' : sres) : Prop := match r with Stuck => True | SEr => r' = SEr | SOk p w => exists q, r' = SOk q w /\ finep p q end.
Lemma fine_refl r : fine r r.
Proof. destruct r; cbn; auto. exists p. split; [reflexivity|destruct p; cbn; auto]. Qed.
Lemma join_l a b : fine (join a b) a.
Proof. destruct a, b; cbn; auto; try (destruct p; exact I). destruct (w_eqb w w0); cbn; auto. exists p. split; [reflexivity|]. destruct p, p0; cbn; auto. Qed.
Lemma join_r a b : fine (join a b) b.
Proof. destruct a, b; cbn; auto; try (destruct p; exact I). destruct (w_eqb w w0) eqn:E; cbn; auto. apply w_eqb_eq in E as ->. exists p0. split; [reflexivity|]. destruct p, p0; cbn; auto. Qed.
Lemma fine_trans a b c : fine a b -> fine b c -> fine a c.
Proof.
  destruct a as [p w| |]; cbn; [|intros ->; cbn; auto|auto]. intros (q & -> & H). cbn. intros (q' & -> & H'). exists q'. split; [reflexivity|].
  destruct p; cbn in *; subst; auto.
Qed.
Lemma fold_fine l : forall r0, fine (fold_left join l r0) r0 /\ forall r, In r l -> fine (fold_left join l r0) r.
Proof.
  induction l as [|r1 l IH]; intros r0; cbn [fold_left]; [split; [apply fine_refl|intros r []]|].
  destruct (IH (join r0 r1)) as [A B]. split; [eapply fine_trans; [exact A|apply join_l]|].
  intros r [<-|Hr]; [eapply fine_trans; [exact A|apply join_r]|apply B, Hr].
Qed.
Lemma joins_fine l r : In r l -> fine (joins l) r.
Proof. destruct l as [|r0 l]; [intros []|]. cbn [joins]. destruct (fold_fine l r0) as [A B]. intros [<-|Hr]; auto. Qed.

Lemma only_er_fine b r : fine (only_er b r) r.
Proof. unfold only_er. destruct b; [|apply fine_refl]. destruct r; exact I || reflexivity. Qed.

Definition contract (H : nat) : Prop := forall h, (h < H)%nat -> forall a p m rest, In p (prods a) -> gn h p m -> fits_one (fol a) rest -> X (ex a) (m ++ rest) (Ok rest).
Definition holdsp (p : prog) (m1 : list token) : Prop := match p with Some1 => m1 <> [] | None0 => m1 = [] | Maybe => True end.
Lemma seqp_ok p q a b : holdsp p a -> holdsp q b -> holdsp (seqp p q) (a ++ b).
Proof. destruct p, q; cbn; auto; intros H1 H2; try (intros E; apply app_eq_nil in E as [E1 E2]; auto); subst; reflexivity. Qed.
Definition means (H : nat) (e : rx) (m rest : list token) (r : sres) : Prop :=
  match r with
  | SOk p w' => exists m1 m2, m = m1 ++ m2 /\ gn H w' m2 /\ X e (m ++ rest) (Ok (m2 ++ rest)) /\ holdsp p m1
  | SEr => X e (m ++ rest) Er
  | Stuck => True
  end.
Lemma means_fine H e m rest r r' : fine r r' -> means H e m rest r' -> means H e m rest r.
Proof.
  destruct r; cbn [fine]; [|intros ->; auto|intros; exact I]. intros (q & -> & Hq). cbn. intros (m1 & m2 & A & B & C & D). exists m1, m2. split; [exact A|]. split; [exact B|]. split; [exact C|]. destruct p; cbn in Hq; [subst; exact D|subst; exact D|exact I].
Qed.
Lemma app_neq {A} (a b c : list A) : a <> [] -> List.length (b ++ c) <> List.length ((a ++ b) ++ c).
Proof. intros H. rewrite !app_length. destruct a; [congruence|]. cbn. lia. Qed.

Lemma run_sound H n : contract H -> forall fo k d e w m rest, gn H w m -> fits_one fo rest -> means H e m rest (run fo n k d e w).
Proof.
  intros HC. induction n as [|n IH]; intros fo k d e w m rest Hg Hr; [exact I|]. cbn [run].
  destruct (match w with Part a :: w' => rx_eqb e (ex a) &&& subset (firsts fo w') (fol a) | _ => false end) eqn:E0.
  { destruct w as [|[s|a] w']; try discriminate. apply lazy_and_iff in E0 as [E1 E2]. apply rx_eqb_eq in E1 as ->.
    inversion Hg as [| |h a' p w0 m1 m2 Hp G1 G2]; subst. exists m1, m2. split; [reflexivity|]. split; [exact G2|]. split.
    - rewrite <- app_assoc. eapply HC; [|exact Hp|exact G1|]; [lia|]. eapply subset_fits; [exact E2|]. eapply head_first; eauto.
    - destruct (solid a) eqn:Es; [|exact I]. exact (solid_ok _ _ _ _ Es Hp G1). }
  clear E0. cbv zeta.
  match goal with |- means _ _ _ _ (match ?r with _ => _ end) => set (r0 := r); assert (M : means H e m rest r0) end.
  { subst r0. destruct (match k, w with S _, Part a :: _ => eager e a | _, _ => false end); [exact I|]. destruct e; try exact I.
    - apply x_fail.
    - exists [], m. repeat split; [exact Hg|constructor].
    - destruct w as [|[s'|a] w'].
      + destruct (may_start s fo []) eqn:E; [exact I|]. cbn [means].
        destruct (m ++ rest) as [|t i] eqn:Ei; [constructor|]. apply x_tok_no. eapply may_start_ok; eassumption.
      + inversion Hg; subst. destruct (sel_eqb (selmaho t) s) eqn:E.
        * apply sel_eqb_eq in E. exists [t], m0. repeat split; [assumption|constructor; exact E|discriminate].
        * apply x_tok_no. intros E'. rewrite E', sel_eqb_refl in E. discriminate.
      + destruct (may_start s fo (Part a :: w')) eqn:E; [exact I|]. cbn [means].
        destruct (m ++ rest) as [|t i] eqn:Ei; [constructor|]. apply x_tok_no. eapply may_start_ok; eassumption.
    - specialize (IH fo k d (tbl x) w m rest Hg Hr). destruct (run fo n k d (tbl x) w) as [p w1| |]; cbn in *.
      + destruct IH as (m1 & m2 & A & B & C & D). exists m1, m2. repeat split; auto. constructor. exact C.
      + constructor. exact IH.
      + exact I.
    - pose proof (IH fo k false e1 w m rest Hg Hr) as I1. destruct (run fo n k false e1 w) as [p w1| |]; cbn [means] in *; [|apply x_seq_no; exact I1|exact I].
      destruct I1 as (m1 & m2 & -> & B & C & D). pose proof (IH fo k false e2 w1 m2 rest B Hr) as I2. destruct (run fo n k false e2 w1) as [q w2| |]; cbn [means] in *.
      + destruct I2 as (m3 & m4 & -> & B' & C' & D'). exists (m1 ++ m3), m4. split; [rewrite app_assoc; reflexivity|]. split; [exact B'|]. split; [eapply x_seq; eassumption|]. apply seqp_ok; assumption.
      + eapply x_seq; eassumption.
      + exact I.
    - pose proof (IH fo k true e1 w m rest Hg Hr) as I1. destruct (run fo n k true e1 w) as [p w1| |]; cbn [means] in *; [| |exact I].
      + destruct I1 as (m1 & m2 & A & B & C & D). exists m1, m2. repeat split; auto. apply x_alt_l, C.
      + pose proof (IH fo k false e2 w m rest Hg Hr) as I2. destruct (run fo n k false e2 w) as [q w2| |]; cbn [means] in *; [|apply x_alt_r; assumption|exact I].
        destruct I2 as (m1 & m2 & A & B & C & D). exists m1, m2. repeat split; auto. apply x_alt_r; assumption.
    - pose proof (IH fo k true e w m rest Hg Hr) as I1. destruct (run fo n k true e w) as [p w1| |]; cbn [means] in *; [| |exact I].
      + destruct I1 as (m1 & m2 & A & B & C & D). exists m1, m2. repeat split; auto. apply x_opt, C.
      + exists [], m. repeat split; [exact Hg|apply x_opt_no, I1].
    - pose proof (IH fo k true e w m rest Hg Hr) as I1. destruct (run fo n k true e w) as [[] w1| |]; cbn [means] in *; try exact I.
      + destruct I1 as (m1 & m2 & -> & B & C & D). cbn in D. pose proof (IH fo k false (XLoop e) w1 m2 rest B Hr) as I2. destruct (run fo n k false (XLoop e) w1) as [q w2| |]; cbn [means] in *; try exact I.
        destruct I2 as (m3 & m4 & -> & B' & C' & D'). exists (m1 ++ m3), m4. split; [rewrite app_assoc; reflexivity|]. split; [exact B'|].
        split; [|intros E; apply app_eq_nil in E as [-> _]; apply D; reflexivity].
        eapply x_loop_more; [exact C| |exact C']. apply app_neq, D.
      + exists [], m. repeat split; [exact Hg|apply x_loop_end, I1].
    - pose proof (IH fo k true e1 w m rest Hg Hr) as I1. destruct (run fo n k true e1 w) as [p w1| |]; cbn [means] in *; [| |exact I].
      + destruct I1 as (m1 & m2 & A & B & C & D). eapply x_nt_hit, C.
      + pose proof (IH fo k false e2 w m rest Hg Hr) as I2. destruct (run fo n k false e2 w) as [q w2| |]; cbn [means] in *; [|apply x_nt; assumption|exact I].
        destruct I2 as (m1 & m2 & A & B & C & D). exists m1, m2. repeat split; auto. apply x_nt; assumption.
    - pose proof (IH fo k false e1 w m rest Hg Hr) as I1. destruct (run fo n k false e1 w) as [p w1| |]; cbn [means] in *; [|apply x_na_no, I1|exact I].
      destruct I1 as (m1 & m2 & -> & B & C & D). pose proof (IH fo k true e2 w1 m2 rest B Hr) as I2. destruct (run fo n k true e2 w1) as [q w2| |]; cbn [means] in *; [| |exact I].
      + destruct I2 as (m3 & m4 & -> & B' & C' & D'). eapply x_na_hit; eassumption.
      + exists m1, m2. repeat split; auto. apply x_na; assumption.
    - pose proof (IH fo k false e w m rest Hg Hr) as I1. destruct (run fo n k false e w) as [[] w1| |]; cbn [means] in *; try exact I; [| |apply x_co_no, I1].
      + destruct I1 as (m1 & m2 & -> & B & C & D). exists m1, m2. repeat split; auto. apply x_co; [exact C|]. apply app_neq, D.
      + destruct I1 as (m1 & m2 & -> & B & C & D). cbn in D. subst m1. eapply x_co_stuck; [exact C|reflexivity].
    - pose proof (IH fo k false e w m rest Hg Hr) as I1. destruct (run fo n k false e w) as [p w1| |]; cbn [means] in *; try exact I.
      destruct I1 as (m1 & m2 & A & B & C & D). exists m1, m2. repeat split; auto. apply x_cut, C. }
  destruct r0 as [p w1| |]; try exact M. destruct k as [|k]; [exact I|].
  match goal with |- means _ _ _ _ (if ?c then _ else _) => destruct c eqn:E end.
  - apply lazy_and_iff in E as [_ E]. rewrite all_forall in E. destruct (head_first _ _ _ Hg _ _ Hr) as (o & Ho & Fo). specialize (E o Ho). destruct (fits_split _ _ Fo) as (m' & r & Em & Em' & Er).
    pose proof (IH [([], snd o)] 0%nat false e (map Word (fst o)) m' r (gn_words _ _ _ Em') Er) as M'.
    destruct (run [([], snd o)] n 0%nat false e (map Word (fst o))); try discriminate. cbn [means] in *. rewrite Em. exact M'.
  - destruct (d &&& split e); [|exact I]. destruct w as [|[s|a] w']; [exact I|exact I|]. inversion Hg as [| |h a' p w0 m1 m2 Hp G1 G2]; subst.
    eapply means_fine; [|eapply (IH fo k true e (p ++ w') (m1 ++ m2) rest)].
    + eapply fine_trans; [apply only_er_fine|]. apply joins_fine. apply in_map_iff. exists p. auto.
    + apply app_gn; [eapply gn_mono; [exact G1|lia]|exact G2].
    + exact Hr.
Qed.

(** the check of one production, and of all *)
Definition prod_ok (n k : nat) (a : nt) (p : list (sym nt)) : bool := match run (fol a) n k true (ex a) p with SOk _ [] => true | _ => false end.
Definition all_ok (n k : nat) : bool := allb (fun a => allb (prod_ok n k a) (prods a)) all.

Theorem gen_sound n k : all_ok n k = true -> forall a m rest, gens [Part a] m -> fits_one (fol a) rest -> X (ex a) (m ++ rest) (Ok rest).
Proof.
  intros Hok. assert (HC : forall H, contract H).
  { induction H as [|H IH]; intros h Hh; [lia|]. intros a p m rest Hp Hg Hr.
    assert (h < H \/ h = H)%nat as [Hlt| ->] by lia; [eapply IH; eassumption|].
    unfold all_ok in Hok. rewrite all_forall in Hok. specialize (Hok a (Hall a)). rewrite all_forall in Hok. specialize (Hok p Hp). unfold prod_ok in Hok.
    pose proof (run_sound H n IH (fol a) k true (ex a) p m rest Hg Hr) as M. destruct (run (fol a) n k true (ex a) p) as [q [|]| |]; try discriminate.
    destruct M as (m1 & m2 & -> & B & C & _). inversion B; subst. exact C. }
  intros a m rest Hg Hr. apply gens_gn in Hg as (h & Hg). inversion Hg as [| |h' a' p w0 m1 m2 Hp G1 G2]; subst. inversion G2; subst. rewrite app_nil_r.
  eapply (HC (S h')); [|exact Hp|exact G1|exact Hr]. lia.
Qed.

(** * Constructs are results of rules *)
Context (xc : nt -> cnt) (Hxc : forall a, whole a = true -> ex a = XCall (xc a)).
Notation V := (V tbl).
Inductive gm : nat -> list (sym nt) -> nt -> list token -> list token -> list token -> Prop :=
| gm_here h a p w m m' : In p (prods a) -> gn h p m -> gn (S h) w m' -> gm (S h) (Part a :: w) a [] m m'
| gm_in h a b p w pre m post m' : In p (prods a) -> gm h p b pre m post -> gn (S h) w m' -> gm (S h) (Part a :: w) b pre m (post ++ m')
| gm_word h s t b w pre m post : selmaho t = s -> gm h w b pre m post -> gm h (Word s :: w) b (t :: pre) m post
| gm_after h a b p w m' pre m post : In p (prods a) -> gn h p m' -> gm (S h) w b pre m post -> gm (S h) (Part a :: w) b (m' ++ pre) m post.
Lemma gm_mono h w b pre m post : gm h w b pre m post -> forall h', (h <= h')%nat -> gm h' w b pre m post.
Proof.
  induction 1; intros h' Hh; try (destruct h' as [|h']; [lia|]).
  - eapply gm_here; [eassumption|eapply gn_mono; [eassumption|lia]|eapply gn_mono; [eassumption|lia]].
  - eapply gm_in; [eassumption|apply IHgm; lia|eapply gn_mono; [eassumption|lia]].
  - apply gm_word; [assumption|apply IHgm; lia].
  - eapply gm_after; [eassumption|eapply gn_mono; [eassumption|lia]|apply IHgm; lia].
Qed.
Lemma phrase_gm w b pre m post : phrase prods w b pre m post -> exists h, gm h w b pre m post.
Proof.
  induction 1 as [a p w m m' Hp G1 G2|a b p w pre m post m' Hp _ (h & IH) G|s t b w pre m post E _ (h & IH)|a b p w m' pre m post Hp G _ (h & IH)].
  - apply gens_gn in G1 as (h1 & G1), G2 as (h2 & G2). exists (S (max h1 h2)). eapply gm_here; [exact Hp|eapply gn_mono; [exact G1|lia]|eapply gn_mono; [exact G2|lia]].
  - apply gens_gn in G as (h2 & G). exists (S (max h h2)). eapply gm_in; [exact Hp|eapply gm_mono; [exact IH|lia]|eapply gn_mono; [exact G|lia]].
  - exists h. apply gm_word; assumption.
  - apply gens_gn in G as (h2 & G). exists (S (max h h2)). eapply gm_after; [exact Hp|eapply gn_mono; [exact G|lia]|eapply gm_mono; [exact IH|lia]].
Qed.
Lemma gm_gn h w b pre m post : gm h w b pre m post -> gn h w (pre ++ m ++ post).
Proof.
  induction 1; cbn [app].
  - econstructor; eassumption.
  - replace (pre ++ m ++ post ++ m') with ((pre ++ m ++ post) ++ m') by (rewrite <- !app_assoc; reflexivity). econstructor; eassumption.
  - constructor; assumption.
  - rewrite <- app_assoc. econstructor; eassumption.
Qed.
Lemma gm_app h w1 b pre m post : gm h w1 b pre m post -> forall w2 m', gn h w2 m' -> gm h (w1 ++ w2) b pre m (post ++ m').
Proof.
  induction 1; intros w2 n' G; cbn [app].
  - eapply gm_here; [eassumption|eassumption|apply app_gn; assumption].
  - rewrite <- app_assoc. eapply gm_in; [eassumption|eassumption|apply app_gn; assumption].
  - apply gm_word; auto.
  - eapply gm_after; [eassumption|eassumption|auto].
Qed.
Lemma app_gm h w1 m1 : gn h w1 m1 -> forall w2 b pre m post, gm h w2 b pre m post -> gm h (w1 ++ w2) b (m1 ++ pre) m post.
Proof.
  induction 1; intros w2 b0 pre0 m0 post0 G; cbn [app].
  - exact G.
  - apply gm_word; auto.
  - rewrite <- app_assoc. eapply gm_after; [eassumption|eassumption|auto].
Qed.

Definition contract_m (H : nat) : Prop := forall h, (h < H)%nat -> forall a p b pre m post rest, In p (prods a) -> gm h p b pre m post -> whole b = true ->
  fits_one (fol a) rest -> V (ex a) (pre ++ m ++ post ++ rest) (xc b) (m ++ post ++ rest) (post ++ rest).

Lemma run_marks H n : contract H -> contract_m H -> forall fo k d e w b pre m post rest q w', gm H w b pre m post -> whole b = true -> fits_one fo rest ->
  run fo n k d e w = SOk q w' ->
  V e (pre ++ m ++ post ++ rest) (xc b) (m ++ post ++ rest) (post ++ rest) \/
  exists pre', X e (pre ++ m ++ post ++ rest) (Ok (pre' ++ m ++ post ++ rest)) /\ gm H w' b pre' m post.
Proof.
  intros HC HM. induction n as [|n IH]; intros fo k d e w b pre m post rest q w' Hg Hb Hr; [discriminate|].
  pose proof (fun k d e => run_sound H n HC fo k d e w _ rest (gm_gn _ _ _ _ _ _ Hg) Hr) as S0.
  assert (EQ : (pre ++ m ++ post) ++ rest = pre ++ m ++ post ++ rest) by (rewrite <- !app_assoc; reflexivity).
  cbn [run].
  destruct (match w with Part a :: w' => rx_eqb e (ex a) &&& subset (firsts fo w') (fol a) | _ => false end) eqn:E0.
  { destruct w as [|[s|a] w1]; try discriminate. apply lazy_and_iff in E0 as [E1 E2]. apply rx_eqb_eq in E1 as ->. intros E. injection E as _ <-.
    inversion Hg as [h a' p w0 m0 m' Hp G1 G2|h a' b' p w0 pre0 m0 post0 m' Hp G1 G2| |h a' b' p w0 m' pre0 m0 post0 Hp G1 G2]; subst.
    - left. rewrite (Hxc b Hb). apply v_call. cbn [app].
      assert (HX : X (ex b) (m ++ post ++ rest) (Ok (post ++ rest))).
      { eapply HC; [|exact Hp|exact G1|]; [lia|]. eapply subset_fits; [exact E2|]. eapply head_first; eauto. }
      rewrite (Hxc b Hb) in HX. inversion HX; subst. assumption.
    - left. rewrite <- !app_assoc. eapply HM; [|exact Hp|exact G1|exact Hb|]; [lia|]. eapply subset_fits; [exact E2|]. eapply head_first; eauto.
    - right. exists pre0. split; [|exact G2]. rewrite <- !app_assoc. eapply HC; [|exact Hp|exact G1|]; [lia|]. eapply subset_fits; [exact E2|].
      replace (pre0 ++ m ++ post ++ rest) with ((pre0 ++ m ++ post) ++ rest) by (rewrite <- !app_assoc; reflexivity). eapply head_first; [eapply gm_gn; exact G2|exact Hr]. }
  clear E0. cbv zeta.
  match goal with |- (match ?r with _ => _ end = _) -> _ => set (r0 := r); assert (M : r0 = SOk q w' ->
     V e (pre ++ m ++ post ++ rest) (xc b) (m ++ post ++ rest) (post ++ rest) \/
     exists pre', X e (pre ++ m ++ post ++ rest) (Ok (pre' ++ m ++ post ++ rest)) /\ gm H w' b pre' m post) end.
  { subst r0. destruct (match k, w with S _, Part a :: _ => eager e a | _, _ => false end); [discriminate|]. destruct e; try discriminate.
    - intros E. injection E as _ <-. right. exists pre. split; [constructor|exact Hg].
    - destruct w as [|[s'|a] w1]; try (destruct (may_start s fo _); discriminate).
      destruct (sel_eqb s' s) eqn:E; [|discriminate]. apply sel_eqb_eq in E as ->. intros E. injection E as _ <-. inversion Hg; subst. right. eexists. split; [|eassumption]. cbn [app]. constructor. reflexivity.
    - intros E. destruct (IH fo k d _ _ _ _ _ _ _ _ _ Hg Hb Hr E) as [A|(pre' & A & B)]; [left; apply v_in, A|right]. exists pre'. split; [constructor; exact A|exact B].
    - destruct (run fo n k false e1 w) as [p w1| |] eqn:E1; try discriminate. destruct (run fo n k false e2 w1) as [p2 w2| |] eqn:E2; try discriminate.
      intros E. injection E as _ <-. destruct (IH fo k _ _ _ _ _ _ _ _ _ _ Hg Hb Hr E1) as [A|(pre' & A & B)]; [left; apply v_seq_l, A|].
      destruct (IH fo k _ _ _ _ _ _ _ _ _ _ B Hb Hr E2) as [A'|(pre2 & A' & B')]; [left; eapply v_seq_r; eassumption|right]. exists pre2. split; [eapply x_seq; eassumption|exact B'].
    - pose proof (S0 k true e1) as M1. destruct (run fo n k true e1 w) as [p w1| |] eqn:E1; try discriminate; cbn [means] in M1; try rewrite EQ in M1.
      + intros E. injection E as _ <-. destruct M1 as (m1 & m2 & _ & _ & C & _). destruct (IH fo k _ _ _ _ _ _ _ _ _ _ Hg Hb Hr E1) as [A|(pre' & A & B)]; [left; eapply v_alt_l; eassumption|right].
        exists pre'. split; [apply x_alt_l, A|exact B].
      + intros E. destruct (IH fo k _ _ _ _ _ _ _ _ _ _ Hg Hb Hr E) as [A|(pre' & A & B)]; [left; apply v_alt_r; assumption|right]. exists pre'. split; [apply x_alt_r; assumption|exact B].
    - pose proof (S0 k true e) as M1. destruct (run fo n k true e w) as [p w1| |] eqn:E1; try discriminate; cbn [means] in M1; try rewrite EQ in M1; intros E; injection E as _ <-.
      + destruct M1 as (m1 & m2 & _ & _ & C & _). destruct (IH fo k _ _ _ _ _ _ _ _ _ _ Hg Hb Hr E1) as [A|(pre' & A & B)]; [left; eapply v_opt; eassumption|right].
        exists pre'. split; [apply x_opt, A|exact B].
      + right. exists pre. split; [apply x_opt_no, M1|exact Hg].
    - pose proof (S0 k true e) as M1. destruct (run fo n k true e w) as [[] w1| |] eqn:E1; try discriminate; cbn [means] in M1; try rewrite EQ in M1.
      + destruct (run fo n k false (XLoop e) w1) as [p2 w2| |] eqn:E2; try discriminate. intros E. injection E as _ <-.
        destruct M1 as (m1 & m2 & Em & _ & C & D). cbn in D.
        assert (L : List.length (m2 ++ rest) <> List.length (pre ++ m ++ post ++ rest)).
        { replace (pre ++ m ++ post ++ rest) with ((m1 ++ m2) ++ rest) by (rewrite <- Em, <- !app_assoc; reflexivity). apply app_neq, D. }
        destruct (IH fo k _ _ _ _ _ _ _ _ _ _ Hg Hb Hr E1) as [A|(pre' & A & B)]; [left; eapply v_loop_first; eassumption|].
        pose proof (X_det _ _ _ _ C _ A) as Ej. injection Ej as Ej. rewrite Ej in L.
        destruct (IH fo k _ _ _ _ _ _ _ _ _ _ B Hb Hr E2) as [A'|(pre2 & A' & B')]; [left; eapply v_loop_more; eassumption|right]. exists pre2. split; [eapply x_loop_more; eassumption|exact B'].
      + intros E. injection E as _ <-. right. exists pre. split; [apply x_loop_end, M1|exact Hg].
    - pose proof (S0 k true e1) as M1. destruct (run fo n k true e1 w) as [p w1| |] eqn:E1; try discriminate; cbn [means] in M1; try rewrite EQ in M1.
      intros E. destruct (IH fo k _ _ _ _ _ _ _ _ _ _ Hg Hb Hr E) as [A|(pre' & A & B)]; [left; apply v_nt; assumption|right]. exists pre'. split; [apply x_nt; assumption|exact B].
    - pose proof (S0 k false e1) as M1. destruct (run fo n k false e1 w) as [p w1| |] eqn:E1; try discriminate; cbn [means] in M1; try rewrite EQ in M1.
      destruct M1 as (m1 & m2 & Em & Gm & C & D). pose proof (run_sound H n HC fo k true e2 w1 m2 rest Gm Hr) as M2.
      destruct (run fo n k true e2 w1) as [p2 w2| |] eqn:E2; try discriminate; cbn [means] in M2. intros E. injection E as _ <-.
      destruct (IH fo k _ _ _ _ _ _ _ _ _ _ Hg Hb Hr E1) as [A|(pre' & A & B)]; [left; apply v_na, A|right]. exists pre'. split; [|exact B].
      apply x_na; [exact A|]. pose proof (X_det _ _ _ _ C _ A) as Ej. injection Ej as Ej. rewrite <- Ej. exact M2.
    - pose proof (S0 k false e) as M1. destruct (run fo n k false e w) as [[] w1| |] eqn:E1; try discriminate; cbn [means] in M1; try rewrite EQ in M1. intros E; injection E as _ <-.
      destruct M1 as (m1 & m2 & Em & _ & C & D). cbn in D.
      assert (L : List.length (m2 ++ rest) <> List.length (pre ++ m ++ post ++ rest)).
      { replace (pre ++ m ++ post ++ rest) with ((m1 ++ m2) ++ rest) by (rewrite <- Em, <- !app_assoc; reflexivity). apply app_neq, D. }
      destruct (IH fo k _ _ _ _ _ _ _ _ _ _ Hg Hb Hr E1) as [A|(pre' & A & B)]; [left; apply v_co, A|right].
      pose proof (X_det _ _ _ _ C _ A) as Ej. injection Ej as Ej. rewrite Ej in L. exists pre'. split; [apply x_co; assumption|exact B].
    - destruct (run fo n k false e w) as [p w1| |] eqn:E1; try discriminate. intros E; injection E as _ <-.
      destruct (IH fo k _ _ _ _ _ _ _ _ _ _ Hg Hb Hr E1) as [A|(pre' & A & B)]; [left; apply v_cut, A|right]. exists pre'. split; [apply x_cut, A|exact B]. }
  destruct r0 as [p w1| |]; try exact M; try (destruct k; discriminate). destruct k as [|k]; [discriminate|].
  match goal with |- ((if ?c then _ else _) = _) -> _ => destruct c; [discriminate|] end.
  destruct (d &&& split e); [|discriminate]. destruct w as [|[s|a] w1]; try discriminate. intros E.
  unfold only_er in E. destruct (whole a) eqn:Ea; [destruct (joins _); discriminate|].
  assert (F : exists p, In p (prods a) /\ gm H (p ++ w1) b pre m post).
  { inversion Hg as [h a' p w0 m0 m' Hp G1 G2|h a' b' p w0 pre0 m0 post0 m' Hp G1 G2| |h a' b' p w0 m' pre0 m0 post0 Hp G1 G2]; subst.
    - congruence.
    - exists p. split; [exact Hp|]. apply gm_app; [eapply gm_mono; [exact G1|lia]|exact G2].
    - exists p. split; [exact Hp|]. apply app_gm; [eapply gn_mono; [exact G1|lia]|exact G2]. }
  destruct F as (p & Hp & G).
  pose proof (joins_fine (map (fun p => run fo n k true e (p ++ w1)) (prods a)) (run fo n k true e (p ++ w1))) as J.
  rewrite E in J. destruct J as (q' & J & _); [apply in_map_iff; exists p; auto|]. eapply IH; eassumption.
Qed.

Theorem gen_parts n k : all_ok n k = true -> forall a b pre m post rest, phrase prods [Part a] b pre m post -> whole a = true -> whole b = true -> fits_one (fol a) rest ->
  V (ex a) (pre ++ m ++ post ++ rest) (xc b) (m ++ post ++ rest) (post ++ rest).
Proof.
  intros Hok. assert (HC : forall H, contract H).
  { intros H h _ a p m rest Hp Hg Hr. rewrite <- (app_nil_r m). eapply gen_sound; [exact Hok| |exact Hr]. econstructor; [exact Hp| |constructor].
    clear - Hg. induction Hg; [constructor|constructor; assumption|econstructor; eassumption]. }
  assert (HM : forall H, contract_m H).
  { induction H as [|H IH]; intros h Hh; [lia|]. intros a p b pre m post rest Hp Hg Hb Hr.
    assert (h < H \/ h = H)%nat as [Hlt| ->] by lia; [eapply IH; eassumption|].
    unfold all_ok in Hok. rewrite all_forall in Hok. specialize (Hok a (Hall a)). rewrite all_forall in Hok. specialize (Hok p Hp). unfold prod_ok in Hok.
    destruct (run (fol a) n k true (ex a) p) as [q [|]| |] eqn:E; try discriminate.
    destruct (run_marks H n (HC H) IH _ _ _ _ _ _ _ _ _ _ _ _ Hg Hb Hr E) as [A|(pre' & _ & G)]; [exact A|inversion G]. }
  intros a b pre m post rest Hph Ha Hb Hr. apply phrase_gm in Hph as (h & Hg).
  inversion Hg as [h' a' p w0 m0 m' Hp G1 G2|h' a' b' p w0 pre0 m0 post0 m' Hp G1 G2| |h' a' b' p w0 m' pre0 m0 post0 Hp G1 G2]; subst.
  - inversion G2; subst. cbn [app]. pose proof (HC (S h') h' ltac:(lia) b p m rest Hp G1 Hr) as HX. rewrite (Hxc b Hb) in *. apply v_call. inversion HX; subst. assumption.
  - inversion G2; subst. rewrite app_nil_r. eapply (HM (S h')); [|exact Hp|exact G1|exact Hb|exact Hr]. lia.
  - inversion G2.
Qed.
End Gen.

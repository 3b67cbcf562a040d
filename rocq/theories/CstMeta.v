(** CstMeta.v -- facts about [grun] for any grammar: fuel, what a successful
    parse derives, where errors point, which cuts failures come from,
    termination. *)
From Verif Require Import Base Span Selmaho Lex Cst.
From Coq Require Import Lia Arith.

Lemma sel_index_nth a : nth_error all_selmaho (N.to_nat (sel_index a)) = Some a.
Proof. destruct a; vm_compute; reflexivity. Qed.

Lemma sel_eqb_eq a b : sel_eqb a b = true -> a = b.
Proof.
  unfold sel_eqb. intros H. apply N.eqb_eq in H.
  pose proof (sel_index_nth a) as Ha. pose proof (sel_index_nth b) as Hb. rewrite H in Ha. congruence.
Qed.

Lemma sel_eqb_refl a : sel_eqb a a = true.
Proof. apply N.eqb_refl. Qed.

Lemma sel_eqb_neq a b : sel_eqb a b = false -> a <> b.
Proof. intros H ->. rewrite sel_eqb_refl in H. discriminate. Qed.

Lemma token_eqb_eq a b : token_eqb a b = true -> a = b.
Proof.
  unfold token_eqb. destruct a as [xa sa [a1 a2]], b as [xb sb [b1 b2]]; cbn.
  rewrite !andb_true_iff. intros (((H1 & H2) & H3) & H4).
  apply eqb_prop in H1. apply sel_eqb_eq in H2. apply N.eqb_eq in H3. apply N.eqb_eq in H4. subst. reflexivity.
Qed.

Lemma token_eqb_refl a : token_eqb a a = true.
Proof. unfold token_eqb. rewrite eqb_reflx, sel_eqb_refl, !N.eqb_refl. reflexivity. Qed.

Lemma otoken_eqb_eq a b : otoken_eqb a b = true -> a = b.
Proof. destruct a, b; cbn; try discriminate; try reflexivity. intros H. apply token_eqb_eq in H. congruence. Qed.

Section Meta.
Context {nt : Type} (rule : nt -> gexp nt).
Notation grun := (grun rule).

(** * More fuel does not change a result *)

Definition le_cres (a b : cres) : Prop := a = COut \/ a = b.

Lemma le_refl_c a : le_cres a a.
Proof. right; reflexivity. Qed.

(** One step, with [f] for the recursive calls *)
Definition gstep (f : gexp nt -> list token -> cres) (e : gexp nt) (i : list token) : cres :=
  match e with
    | GTok s =>
        match i with
        | [] => CErr (mkerr [] (ExpectedGot [s] None))
        | t :: r => if sel_eqb (selmaho t) s then COk r (VTok t) else CErr (mkerr r (ExpectedGot [s] (Some t)))
        end
    | GAny => match i with t :: r => COk r (VTok t) | [] => CErr (mkerr [] (Nom KEof)) end
    | GSpan name => match i with t :: r => COk r (VSpan name (tspan t)) | [] => CErr (mkerr [] (Nom KEof)) end
    | GCall x => f (rule x) i
    | GNil => COk i (VPass [])
    | GCons e es =>
        match f e i with
        | COk r v => match f es r with
                     | COk r' w => COk r' (vcons v w)
                     | other => other
                     end
        | other => other
        end
    | GAlt a b =>
        match f a i with
        | CErr ea => match f b i with
                     | CErr eb => CErr (err_or ea eb)
                     | other => other
                     end
        | other => other
        end
    | GOpt e => match f e i with
                | COk r v => COk r (VPass [v])
                | CErr _ => COk i (VPass [])
                | other => other
                end
    | GLoop k e =>
        match f e i with
        | COk r v =>
            if same_len r i then CErr (mkerr i (Nom k))
            else match f (GLoop k e) r with
                 | COk r' w => COk r' (vcons v w)
                 | other => other
                 end
        | CErr _ => COk i (VPass [])
        | other => other
        end
    | GMany1 e =>
        match f e i with
        | COk r v => match f (GLoop KMany1 e) r with
                     | COk r' w => COk r' (vcons v w)
                     | other => other
                     end
        | other => other
        end
    | GManyTill h g =>
        match f g i with
        | COk r v => COk r (VPass [VPass []; v])
        | CErr _ =>
            match f h i with
            | COk r v =>
                if same_len r i then CErr (mkerr r (Nom KManyTill))
                else match f (GManyTill h g) r with
                     | COk r' w => COk r' (match w with VPass [VPass l; x] => VPass [VPass (v :: l); x] | _ => w end)
                     | other => other
                     end
            | other => other
            end
        | other => other
        end
    | GNotThen p e =>
        match f p i with
        | COk _ _ => CErr (mkerr i (Nom KNot))
        | CErr _ => f e i
        | other => other
        end
    | GNotAfter e p =>
        match f e i with
        | COk r v => match f p r with
                     | COk _ _ => CErr (mkerr r (Nom KNot))
                     | CErr _ => COk r v
                     | other => other
                     end
        | other => other
        end
    | GCut e => match f e i with CErr x => CFail x | other => other end
    | GConsume name e =>
        match f e i with
        | COk r v => if same_len r i then CErr (mkerr i (Empty name)) else COk r v
        | other => other
        end
    | GPost c e =>
        match f e i with
        | COk r v => if holds c v then COk r v else CErr (mkerr i PostConditionFailed)
        | other => other
        end
    | GNode name e =>
        match f e i with
        | COk r v => COk r (VNode name (fields_of v))
        | other => other
        end
    end.

Lemma grun_S n e i : grun (S n) e i = gstep (grun n) e i.
Proof. destruct e; reflexivity. Qed.

Lemma grun_mono_S n : forall e i, le_cres (grun n e i) (grun (S n) e i).
Proof.
  induction n as [|n IH]; intros e i; [left; reflexivity|].
  rewrite grun_S, (grun_S (S n)).
  destruct e as [s| |nm|x| |e es|a b|e|k e|e|h g|p e|e p|e|nm e|c e|nm e]; cbn [gstep];
    try apply le_refl_c.
  - apply IH.
  - destruct (IH e i) as [->|<-]; [left; reflexivity|]. destruct (grun n e i) as [|r v|x|x]; try apply le_refl_c.
    destruct (IH es r) as [->|<-]; [left; reflexivity|apply le_refl_c].
  - destruct (IH a i) as [->|<-]; [left; reflexivity|]. destruct (grun n a i) as [|r v|x|x]; try apply le_refl_c.
    destruct (IH b i) as [->|<-]; [left; reflexivity|apply le_refl_c].
  - destruct (IH e i) as [->|<-]; [left; reflexivity|apply le_refl_c].
  - destruct (IH e i) as [->|<-]; [left; reflexivity|]. destruct (grun n e i) as [|r v|x|x]; try apply le_refl_c.
    destruct (same_len r i); [apply le_refl_c|].
    destruct (IH (GLoop k e) r) as [->|<-]; [left; reflexivity|apply le_refl_c].
  - destruct (IH e i) as [->|<-]; [left; reflexivity|]. destruct (grun n e i) as [|r v|x|x]; try apply le_refl_c.
    destruct (IH (GLoop KMany1 e) r) as [->|<-]; [left; reflexivity|apply le_refl_c].
  - destruct (IH g i) as [->|<-]; [left; reflexivity|]. destruct (grun n g i) as [|r v|x|x]; try apply le_refl_c.
    destruct (IH h i) as [->|<-]; [left; reflexivity|]. destruct (grun n h i) as [|r v|y|y]; try apply le_refl_c.
    destruct (same_len r i); [apply le_refl_c|].
    destruct (IH (GManyTill h g) r) as [->|<-]; [left; reflexivity|apply le_refl_c].
  - destruct (IH p i) as [->|<-]; [left; reflexivity|]. destruct (grun n p i) as [|r v|x|x]; try apply le_refl_c.
    apply IH.
  - destruct (IH e i) as [->|<-]; [left; reflexivity|]. destruct (grun n e i) as [|r v|x|x]; try apply le_refl_c.
    destruct (IH p r) as [->|<-]; [left; reflexivity|apply le_refl_c].
  - destruct (IH e i) as [->|<-]; [left; reflexivity|apply le_refl_c].
  - destruct (IH e i) as [->|<-]; [left; reflexivity|apply le_refl_c].
  - destruct (IH e i) as [->|<-]; [left; reflexivity|apply le_refl_c].
  - destruct (IH e i) as [->|<-]; [left; reflexivity|apply le_refl_c].
Qed.

Lemma grun_mono n m e i : (n <= m)%nat -> grun n e i <> COut -> grun m e i = grun n e i.
Proof.
  induction 1 as [|m Hle IH]; intros Hn; [reflexivity|].
  specialize (IH Hn). destruct (grun_mono_S m e i) as [H|H]; congruence.
Qed.

Lemma grun_agree n m e i : grun n e i <> COut -> grun m e i <> COut -> grun n e i = grun m e i.
Proof.
  intros Hn Hm. destruct (Nat.le_ge_cases n m) as [H|H]; [symmetry|]; apply grun_mono; assumption.
Qed.

(** * What a successful parse derives *)

(** [derives e m v]: [e] may consume exactly the tokens [m], giving [v];
    order of alternatives and lookahead are forgotten. *)
Inductive derives : gexp nt -> list token -> val -> Prop :=
| d_tok s t : selmaho t = s -> derives (GTok s) [t] (VTok t)
| d_any t : derives GAny [t] (VTok t)
| d_span nm t : derives (GSpan nm) [t] (VSpan nm (tspan t))
| d_call x m v : derives (rule x) m v -> derives (GCall x) m v
| d_nil : derives GNil [] (VPass [])
| d_cons e es m1 m2 v w : derives e m1 v -> derives es m2 w -> derives (GCons e es) (m1 ++ m2) (vcons v w)
| d_alt_l a b m v : derives a m v -> derives (GAlt a b) m v
| d_alt_r a b m v : derives b m v -> derives (GAlt a b) m v
| d_opt_some e m v : derives e m v -> derives (GOpt e) m (VPass [v])
| d_opt_none e : derives (GOpt e) [] (VPass [])
| d_loop_nil k e : derives (GLoop k e) [] (VPass [])
| d_loop_cons k e m1 m2 v w : derives e m1 v -> m1 <> [] -> derives (GLoop k e) m2 w ->
    derives (GLoop k e) (m1 ++ m2) (vcons v w)
| d_many1 e m1 m2 v w : derives e m1 v -> derives (GLoop KMany1 e) m2 w -> derives (GMany1 e) (m1 ++ m2) (vcons v w)
| d_till_end f g m v : derives g m v -> derives (GManyTill f g) m (VPass [VPass []; v])
| d_till_more f g m1 m2 v l x : derives f m1 v -> m1 <> [] -> derives (GManyTill f g) m2 (VPass [VPass l; x]) ->
    derives (GManyTill f g) (m1 ++ m2) (VPass [VPass (v :: l); x])
| d_not_then p e m v : derives e m v -> derives (GNotThen p e) m v
| d_not_after e p m v : derives e m v -> derives (GNotAfter e p) m v
| d_cut e m v : derives e m v -> derives (GCut e) m v
| d_consume nm e m v : derives e m v -> m <> [] -> derives (GConsume nm e) m v
| d_post c e m v : derives e m v -> holds c v = true -> derives (GPost c e) m v
| d_node nm e m v : derives e m v -> derives (GNode nm e) m (VNode nm (fields_of v)).

Lemma till_shape f g m v : derives (GManyTill f g) m v -> exists l x, v = VPass [VPass l; x].
Proof. intros H; inversion H; subst; eauto. Qed.

Lemma same_len_spec (a b : list token) : same_len a b = true <-> List.length a = List.length b.
Proof. apply Nat.eqb_eq. Qed.

Lemma same_len_app_false m r : same_len r (m ++ r) = false -> m <> [].
Proof. intros H ->. cbn in H. unfold same_len in H. rewrite Nat.eqb_refl in H. discriminate. Qed.

Lemma run_derives n : forall e i r v, grun n e i = COk r v -> exists m, i = m ++ r /\ derives e m v.
Proof.
  induction n as [|n IH]; intros e i r v; [discriminate|].
  destruct e as [s| |nm|x| |e es|a b|e|k e|e|f g|p e|e p|e|nm e|c e|nm e]; cbn [Cst.grun].
  - destruct i as [|t i]; [discriminate|]. destruct (sel_eqb (selmaho t) s) eqn:E; [|discriminate].
    intros [= <- <-]. exists [t]. split; [reflexivity|]. constructor. apply sel_eqb_eq. exact E.
  - destruct i as [|t i]; [discriminate|]. intros [= <- <-]. exists [t]. split; [reflexivity|constructor].
  - destruct i as [|t i]; [discriminate|]. intros [= <- <-]. exists [t]. split; [reflexivity|constructor].
  - intros H. apply IH in H as (m & -> & H). exists m. split; [reflexivity|constructor; exact H].
  - intros [= <- <-]. exists []. split; [reflexivity|constructor].
  - destruct (grun n e i) as [|r1 v1|z|z] eqn:E; try discriminate.
    destruct (grun n es r1) as [|r2 v2|z|z] eqn:E2; try discriminate. intros [= <- <-].
    apply IH in E as (m1 & -> & H1). apply IH in E2 as (m2 & -> & H2).
    exists (m1 ++ m2). split; [apply app_assoc|constructor; assumption].
  - destruct (grun n a i) as [|r1 v1|z|z] eqn:E; try discriminate.
    + intros [= <- <-]. apply IH in E as (m1 & -> & H1). exists m1. split; [reflexivity|constructor; exact H1].
    + destruct (grun n b i) as [|r2 v2|z'|z'] eqn:E2; try discriminate. intros [= <- <-].
      apply IH in E2 as (m1 & -> & H1). exists m1. split; [reflexivity|apply d_alt_r; exact H1].
  - destruct (grun n e i) as [|r1 v1|z|z] eqn:E; try discriminate; intros [= <- <-].
    + apply IH in E as (m1 & -> & H1). exists m1. split; [reflexivity|constructor; exact H1].
    + exists []. split; [reflexivity|constructor].
  - destruct (grun n e i) as [|r1 v1|z|z] eqn:E; try discriminate.
    + destruct (same_len r1 i) eqn:Es; [discriminate|].
      destruct (grun n (GLoop k e) r1) as [|r2 v2|z|z] eqn:E2; try discriminate. intros [= <- <-].
      apply IH in E as (m1 & -> & H1). apply IH in E2 as (m2 & -> & H2).
      exists (m1 ++ m2). split; [apply app_assoc|constructor; try assumption].
      eapply same_len_app_false; eassumption.
    + intros [= <- <-]. exists []. split; [reflexivity|constructor].
  - destruct (grun n e i) as [|r1 v1|z|z] eqn:E; try discriminate.
    destruct (grun n (GLoop KMany1 e) r1) as [|r2 v2|z|z] eqn:E2; try discriminate. intros [= <- <-].
    apply IH in E as (m1 & -> & H1). apply IH in E2 as (m2 & -> & H2).
    exists (m1 ++ m2). split; [apply app_assoc|constructor; assumption].
  - destruct (grun n g i) as [|r1 v1|z|z] eqn:E; try discriminate.
    + intros [= <- <-]. apply IH in E as (m1 & -> & H1). exists m1. split; [reflexivity|constructor; exact H1].
    + clear E. destruct (grun n f i) as [|r1 v1|z'|z'] eqn:E; try discriminate.
      destruct (same_len r1 i) eqn:Es; [discriminate|].
      destruct (grun n (GManyTill f g) r1) as [|r2 v2|z'|z'] eqn:E2; try discriminate. intros [= <- <-].
      apply IH in E as (m1 & -> & H1). apply IH in E2 as (m2 & -> & H2).
      pose proof (till_shape _ _ _ _ H2) as (l & x & ->).
      exists (m1 ++ m2). split; [apply app_assoc|constructor; try assumption].
      eapply same_len_app_false; eassumption.
  - destruct (grun n p i) as [|r1 v1|z|z] eqn:E; try discriminate.
    intros H. apply IH in H as (m & -> & H). exists m. split; [reflexivity|constructor; exact H].
  - destruct (grun n e i) as [|r1 v1|z|z] eqn:E; try discriminate.
    destruct (grun n p r1) as [|r2 v2|z|z] eqn:E2; try discriminate. intros [= <- <-].
    apply IH in E as (m1 & -> & H1). exists m1. split; [reflexivity|constructor; exact H1].
  - destruct (grun n e i) as [|r1 v1|z|z] eqn:E; try discriminate. intros [= <- <-].
    apply IH in E as (m1 & -> & H1). exists m1. split; [reflexivity|constructor; exact H1].
  - destruct (grun n e i) as [|r1 v1|z|z] eqn:E; try discriminate.
    destruct (same_len r1 i) eqn:Es; [discriminate|]. intros [= <- <-].
    apply IH in E as (m1 & -> & H1). exists m1. split; [reflexivity|constructor; [exact H1|]].
    eapply same_len_app_false; eassumption.
  - destruct (grun n e i) as [|r1 v1|z|z] eqn:E; try discriminate.
    destruct (holds c v1) eqn:Es; [|discriminate]. intros [= <- <-].
    apply IH in E as (m1 & -> & H1). exists m1. split; [reflexivity|constructor; assumption].
  - destruct (grun n e i) as [|r1 v1|z|z] eqn:E; try discriminate. intros [= <- <-].
    apply IH in E as (m1 & -> & H1). exists m1. split; [reflexivity|constructor; exact H1].
Qed.

Lemma run_length n e i r v : grun n e i = COk r v -> (List.length r <= List.length i)%nat.
Proof. intros H. apply run_derives in H as (m & -> & _). rewrite app_length. lia. Qed.

(** * Errors point into the input *)

Definition err_ok (i : list token) (x : werror) : Prop :=
  match cerr x with
  | ExpectedGot l (Some t) => (exists m, i = m ++ t :: location x) /\ ~ In (selmaho t) l
  | ExpectedGot _ None => location x = []
  | _ => exists m, i = m ++ location x
  end.

Lemma err_ok_suffix i x : err_ok i x -> exists m, i = m ++ location x.
Proof.
  unfold err_ok. destruct (cerr x) as [l [t|]| | |]; auto.
  - intros [(m & ->) _]. exists (m ++ [t]). rewrite <- app_assoc. reflexivity.
  - intros ->. exists i. rewrite app_nil_r. reflexivity.
Qed.

Lemma err_ok_app m i x : err_ok i x -> err_ok (m ++ i) x.
Proof.
  unfold err_ok. destruct (cerr x) as [l [t|]| | |]; auto;
    try (intros (m' & ->); exists (m ++ m'); rewrite app_assoc; reflexivity).
  intros [(m' & ->) H]. split; [|exact H]. exists (m ++ m'). rewrite <- app_assoc. reflexivity.
Qed.

Lemma err_or_ok i a b : err_ok i a -> err_ok i b -> err_ok i (err_or a b).
Proof.
  intros Ha Hb. unfold err_or.
  destruct (Nat.ltb _ _); [exact Ha|]. destruct (Nat.ltb _ _); [exact Hb|].
  destruct (cerr a) as [la ga| | |] eqn:Ea; try exact Hb.
  destruct (cerr b) as [lb gb| | |] eqn:Eb; try exact Hb.
  destruct (otoken_eqb ga gb) eqn:E; [|exact Hb]. apply otoken_eqb_eq in E. subst gb.
  unfold err_ok in *. cbn. rewrite Ea in Ha. rewrite Eb in Hb. destruct ga as [t|]; [|exact Ha].
  destruct Ha as [Ha Na], Hb as [_ Nb]. split; [exact Ha|]. rewrite in_app_iff. tauto.
Qed.

Lemma err_ok_at i x : (forall l g, cerr x <> ExpectedGot l g) -> (exists m, i = m ++ location x) -> err_ok i x.
Proof. unfold err_ok. destruct (cerr x) as [l g| | |]; try (intros _ H; exact H). intros H. destruct (H l g); reflexivity. Qed.

Definition res_err (c : cres) : option werror := match c with CErr x | CFail x => Some x | _ => None end.

Lemma run_err_ok n : forall e i x, res_err (grun n e i) = Some x -> err_ok i x.
Proof.
  induction n as [|n IH]; intros e i x; [discriminate|].
  assert (IHe : forall e i x, grun n e i = CErr x -> err_ok i x) by (intros ? ? ? H; eapply IH; rewrite H; reflexivity).
  assert (IHf : forall e i x, grun n e i = CFail x -> err_ok i x) by (intros ? ? ? H; eapply IH; rewrite H; reflexivity).
  assert (IHr : forall e i r v x, grun n e i = COk r v -> err_ok r x -> err_ok i x).
  { intros ? ? ? ? ? H He. apply run_derives in H as (m & -> & _). apply err_ok_app. exact He. }
  assert (Hself : forall i e, (forall l g, e <> ExpectedGot l g) -> err_ok i (mkerr i e)).
  { intros. apply err_ok_at; [assumption|]. exists []. reflexivity. }
  destruct e as [s| |nm|z| |e es|a b|e|k e|e|f g|p e|e p|e|nm e|c e|nm e]; cbn [Cst.grun].
  - destruct i as [|t i]; [intros [= <-]; reflexivity|].
    destruct (sel_eqb (selmaho t) s) eqn:E; [discriminate|]. intros [= <-]. cbn.
    split; [exists []; reflexivity|]. intros [H|[]]. apply sel_eqb_neq in E. congruence.
  - destruct i as [|t i]; [|discriminate]. intros [= <-]. apply Hself. discriminate.
  - destruct i as [|t i]; [|discriminate]. intros [= <-]. apply Hself. discriminate.
  - apply IH.
  - discriminate.
  - destruct (grun n e i) as [|r1 v1|z|z] eqn:E; try discriminate; cbn; try (intros [= <-]; eauto).
    destruct (grun n es r1) as [|r2 v2|z|z] eqn:E2; cbn; try discriminate; intros [= <-]; eauto.
  - destruct (grun n a i) as [|r1 v1|z|z] eqn:E; try discriminate; cbn; try (intros [= <-]; eauto).
    destruct (grun n b i) as [|r2 v2|z'|z'] eqn:E2; cbn; try discriminate; intros [= <-]; eauto.
    apply err_or_ok; eauto.
  - destruct (grun n e i) as [|r1 v1|z|z] eqn:E; try discriminate; cbn; intros [= <-]; eauto.
  - destruct (grun n e i) as [|r1 v1|z|z] eqn:E; try discriminate; cbn; try (intros [= <-]; eauto).
    destruct (same_len r1 i); [intros [= <-]; apply Hself; discriminate|].
    destruct (grun n (GLoop k e) r1) as [|r2 v2|z|z] eqn:E2; cbn; try discriminate; intros [= <-]; eauto.
  - destruct (grun n e i) as [|r1 v1|z|z] eqn:E; try discriminate; cbn; try (intros [= <-]; eauto).
    destruct (grun n (GLoop KMany1 e) r1) as [|r2 v2|z|z] eqn:E2; cbn; try discriminate; intros [= <-]; eauto.
  - destruct (grun n g i) as [|r1 v1|z|z] eqn:E; try discriminate; cbn; try (intros [= <-]; eauto).
    destruct (grun n f i) as [|r1 v1|z'|z'] eqn:E1; try discriminate; cbn; try (intros [= <-]; eauto).
    destruct (same_len r1 i).
    + intros [= <-]. eapply IHr; [exact E1|]. apply Hself; discriminate.
    + destruct (grun n (GManyTill f g) r1) as [|r2 v2|z'|z'] eqn:E2; cbn; try discriminate; intros [= <-]; eauto.
  - destruct (grun n p i) as [|r1 v1|z|z] eqn:E; try discriminate; cbn; try (intros [= <-]; eauto).
    + apply Hself; discriminate.
    + apply IH.
  - destruct (grun n e i) as [|r1 v1|z|z] eqn:E; try discriminate; cbn; try (intros [= <-]; eauto).
    destruct (grun n p r1) as [|r2 v2|z|z] eqn:E2; cbn; try discriminate; intros [= <-]; eauto.
    eapply IHr; [exact E|]. apply Hself; discriminate.
  - destruct (grun n e i) as [|r1 v1|z|z] eqn:E; try discriminate; cbn; intros [= <-]; eauto.
  - destruct (grun n e i) as [|r1 v1|z|z] eqn:E; try discriminate; cbn; try (intros [= <-]; eauto).
    destruct (same_len r1 i); [|discriminate]. intros [= <-]; apply Hself; discriminate.
  - destruct (grun n e i) as [|r1 v1|z|z] eqn:E; try discriminate; cbn; try (intros [= <-]; eauto).
    destruct (holds c v1); [discriminate|]. intros [= <-]; apply Hself; discriminate.
  - destruct (grun n e i) as [|r1 v1|z|z] eqn:E; try discriminate; cbn; intros [= <-]; eauto.
Qed.

(** * Failures come from cuts *)

Section Cuts.
Context (P : gexp nt -> Prop).

Fixpoint cuts_in (e : gexp nt) : Prop :=
  match e with
  | GTok _ | GAny | GSpan _ | GCall _ | GNil => True
  | GCons a b | GAlt a b | GManyTill a b | GNotThen a b | GNotAfter a b => cuts_in a /\ cuts_in b
  | GOpt a | GLoop _ a | GMany1 a | GConsume _ a | GPost _ a | GNode _ a => cuts_in a
  | GCut a => P a /\ cuts_in a
  end.

Lemma fail_from_cut (HR : forall x, cuts_in (rule x)) n : forall e i x, cuts_in e -> grun n e i = CFail x ->
  exists b m j k, P b /\ i = m ++ j /\ grun k b j = CErr x.
Proof.
  induction n as [|n IH]; intros e i x He; [discriminate|].
  assert (IHr : forall e e' i r v, cuts_in e' -> grun n e i = COk r v -> grun n e' r = CFail x ->
    exists b m j k, P b /\ i = m ++ j /\ grun k b j = CErr x).
  { intros e1 e' i1 r v Hc H Hf. apply run_derives in H as (m & -> & _).
    apply IH in Hf as (b & m' & j & k & Hp & -> & Hk); [|exact Hc].
    exists b, (m ++ m'), j, k. rewrite app_assoc. auto. }
  destruct e as [s| |nm|z| |e es|a b|e|k e|e|f g|p e|e p|e|nm e|c e|nm e]; cbn [Cst.grun cuts_in] in *.
  - destruct i as [|t i]; [discriminate|]. destruct (sel_eqb (selmaho t) s); discriminate.
  - destruct i; discriminate.
  - destruct i; discriminate.
  - apply IH. apply HR.
  - discriminate.
  - destruct He as [H1 H2]. destruct (grun n e i) as [|r1 v1|z|z] eqn:E; try discriminate.
    + destruct (grun n es r1) as [|r2 v2|z|z] eqn:E2; try discriminate. intros [= <-]. eauto.
    + intros [= <-]. eauto.
  - destruct He as [H1 H2]. destruct (grun n a i) as [|r1 v1|z|z] eqn:E; try discriminate.
    + destruct (grun n b i) as [|r2 v2|z'|z'] eqn:E2; try discriminate. intros [= <-]. eauto.
    + intros [= <-]. eauto.
  - destruct (grun n e i) as [|r1 v1|z|z] eqn:E; try discriminate. intros [= <-]. eauto.
  - destruct (grun n e i) as [|r1 v1|z|z] eqn:E; try discriminate.
    + destruct (same_len r1 i); [discriminate|].
      destruct (grun n (GLoop k e) r1) as [|r2 v2|z|z] eqn:E2; try discriminate. intros [= <-].
      eapply IHr; [|exact E|exact E2]. exact He.
    + intros [= <-]. eauto.
  - destruct (grun n e i) as [|r1 v1|z|z] eqn:E; try discriminate.
    + destruct (grun n (GLoop KMany1 e) r1) as [|r2 v2|z|z] eqn:E2; try discriminate. intros [= <-].
      eapply IHr; [|exact E|exact E2]. exact He.
    + intros [= <-]. eauto.
  - destruct He as [H1 H2]. destruct (grun n g i) as [|r1 v1|z|z] eqn:E; try discriminate.
    + destruct (grun n f i) as [|r1 v1|z'|z'] eqn:E1; try discriminate.
      * destruct (same_len r1 i); [discriminate|].
        destruct (grun n (GManyTill f g) r1) as [|r2 v2|z'|z'] eqn:E2; try discriminate. intros [= <-].
        eapply IHr; [|exact E1|exact E2]. split; assumption.
      * intros [= <-]. eauto.
    + intros [= <-]. eauto.
  - destruct He as [H1 H2]. destruct (grun n p i) as [|r1 v1|z|z] eqn:E; try discriminate.
    + eauto.
    + intros [= <-]. eauto.
  - destruct He as [H1 H2]. destruct (grun n e i) as [|r1 v1|z|z] eqn:E; try discriminate.
    + destruct (grun n p r1) as [|r2 v2|z|z] eqn:E2; try discriminate. intros [= <-]. eauto.
    + intros [= <-]. eauto.
  - destruct He as [H1 H2]. destruct (grun n e i) as [|r1 v1|z|z] eqn:E; try discriminate.
    + intros [= <-]. exists e, [], i, n. auto.
    + intros [= <-]. eauto.
  - destruct (grun n e i) as [|r1 v1|z|z] eqn:E; try discriminate.
    + destruct (same_len r1 i); discriminate.
    + intros [= <-]. eauto.
  - destruct (grun n e i) as [|r1 v1|z|z] eqn:E; try discriminate.
    + destruct (holds c v1); discriminate.
    + intros [= <-]. eauto.
  - destruct (grun n e i) as [|r1 v1|z|z] eqn:E; try discriminate. intros [= <-]. eauto.
Qed.
End Cuts.

(** * Certificates *)

Section Cert.
(** [nn x]: [x] consumes at least one token when it succeeds; [ne x]: [x] gives
    no plain error; [nd x]: nesting bound for the calls made before anything is
    consumed; [D]: nesting bound for everything. *)
Context (nn ne : nt -> bool) (nd : nt -> nat) (D : nat).

Fixpoint nonnull (e : gexp nt) : bool :=
  match e with
  | GTok _ | GAny | GSpan _ | GConsume _ _ => true
  | GNil | GOpt _ | GLoop _ _ => false
  | GCall x => nn x
  | GCons a b => nonnull a || nonnull b
  | GAlt a b => nonnull a && nonnull b
  | GManyTill _ g => nonnull g
  | GMany1 a | GCut a | GNode _ a => nonnull a
  | GPost c a =>
      nonnull a ||
      match c, a with
      | PSomeField, GNode _ t =>
          (fix go t := match t with
                       | GNil => true
                       | GCons (GOpt b) u => nonnull b && go u
                       | GCons (GLoop _ _) u => go u
                       | _ => false
                       end) t
      | _, _ => false
      end
  | GNotThen _ a => nonnull a
  | GNotAfter a _ => nonnull a
  end.

(** all fields are options or slices that consume tokens unless empty *)
Definition optish (e : gexp nt) : bool :=
  match e with GOpt b => nonnull b | GLoop _ _ => true | _ => false end.
Fixpoint somefield (t : gexp nt) : bool :=
  match t with
  | GNil => true
  | GCons a u => optish a && somefield u
  | _ => false
  end.
Definition somefield' (e : gexp nt) : bool :=
  match e with GNode _ t => somefield t | _ => somefield e end.

Fixpoint noerr (e : gexp nt) : bool :=
  match e with
  | GTok _ | GAny | GSpan _ | GConsume _ _ | GPost _ _ | GNotThen _ _ | GNotAfter _ _ | GManyTill _ _ => false
  | GNil | GCut _ => true
  | GOpt _ => true
  | GLoop _ a => nonnull a
  | GMany1 a => noerr a && nonnull a
  | GCall x => ne x
  | GCons a b => noerr a && noerr b
  | GAlt a b => noerr a || noerr b
  | GNode _ a => noerr a
  end.

Fixpoint need (e : gexp nt) : nat :=
  S match e with
    | GTok _ | GAny | GSpan _ | GNil => 0
    | GCall x => nd x
    | GCons a b | GNotAfter a b => Nat.max (need a) (if nonnull a then 0 else need b)
    | GAlt a b | GManyTill a b | GNotThen a b => Nat.max (need a) (need b)
    | GMany1 a => Nat.max (need a) (if nonnull a then 0 else S (need a))
    | GOpt a | GLoop _ a | GCut a | GConsume _ a | GPost _ a | GNode _ a => need a
    end%nat.

Fixpoint wf (e : gexp nt) : bool :=
  Nat.leb (need e) D &&
  match e with
  | GTok _ | GAny | GSpan _ | GNil | GCall _ => true
  | GCons a b | GNotAfter a b | GAlt a b | GManyTill a b | GNotThen a b => wf a && wf b
  | GMany1 a => wf a && Nat.leb (S (need a)) D
  | GOpt a | GLoop _ a | GCut a | GConsume _ a | GPost _ a | GNode _ a => wf a
  end.

Definition grammar_ok : Prop :=
  forall x, (nn x = true -> nonnull (rule x) = true) /\ (ne x = true -> noerr (rule x) = true) /\
            (need (rule x) <= nd x)%nat /\ wf (rule x) = true.

Hypothesis OK : grammar_ok.

Lemma app_nonnil {A} (a b : list A) : a <> [] \/ b <> [] -> a ++ b <> [].
Proof. destruct a; cbn; [intros [H|H]; [congruence|exact H]|discriminate]. Qed.

Lemma somefield_go nm t :
  nonnull (GPost PSomeField (GNode nm t)) = true -> nonnull (GNode nm t) = true \/ somefield t = true.
Proof.
  cbn [nonnull]. intros H. apply orb_true_iff in H as [H|H]; [left; exact H|right].
  revert H. induction t as [| | | | |e _ es IH| | | | | | | | | | |]; try discriminate; [reflexivity|].
  destruct e; try discriminate; cbn [somefield optish].
  - intros H. apply andb_true_iff in H as [H1 H2]. rewrite H1. apply IH. exact H2.
  - intros H. apply IH. exact H.
Qed.

Definition vfields (v : val) : list val := match v with VNode _ l | VPass l => l | _ => [] end.

Lemma somefield_pass e m v : derives e m v -> somefield e = true -> exists l, v = VPass l.
Proof. destruct e; try discriminate; intros H _; inversion H; subst; unfold vcons; eauto. Qed.

Lemma nonnull_derives_all e m v : derives e m v ->
  (nonnull e = true -> m <> []) /\ (optish e = true -> nonempty v = true -> m <> []) /\
  (somefield' e = true -> existsb nonempty (vfields v) = true -> m <> []).
Proof.
  induction 1;
  repeat match goal with IH : _ /\ _ /\ _ |- _ => let A := fresh "Nn" in let B := fresh "Oo" in let C := fresh "Sf" in destruct IH as (A & B & C) end;
  (split; [|split]); try discriminate.
  - intros Hn. apply Nn. apply (proj1 (OK x)). exact Hn.
  - cbn [nonnull]. intros Hn. apply app_nonnil. apply orb_true_iff in Hn as [Hn|Hn];
      [left|right]; auto.
  - cbn [somefield' somefield]. intros Hn Hv. apply andb_true_iff in Hn as [H1 H2].
    assert (H2' : somefield' es = true) by (destruct es; try discriminate; exact H2).
    assert (Hw : existsb nonempty (vfields w) = existsb nonempty (fields_of w)).
    { destruct (somefield_pass _ _ _ H0 H2) as (l & ->). reflexivity. }
    unfold vcons in Hv. cbn [vfields existsb] in Hv. apply app_nonnil.
    apply orb_true_iff in Hv as [Hv|Hv]; [left; auto|right].
    rewrite <- Hw in Hv. auto.
  - cbn [nonnull]. intros Hn. apply andb_true_iff in Hn as [H1 H2]. auto.
  - cbn [nonnull]. intros Hn. apply andb_true_iff in Hn as [H1 H2]. auto.
  - cbn [optish]. intros Hn _. auto.
  - intros _ _. apply app_nonnil. left. assumption.
  - cbn [nonnull]. intros Hn. apply app_nonnil. left. auto.
  - cbn [nonnull]. intros Hn. auto.
  - intros _. apply app_nonnil. left. assumption.
  - cbn [nonnull]. intros Hn. auto.
  - cbn [nonnull]. intros Hn. auto.
  - cbn [nonnull]. intros Hn. auto.
  - intros _. assumption.
  - destruct c as [|l]; [destruct e|]; try solve [cbn [nonnull]; intros Hn; rewrite ?orb_false_r in Hn; auto].
    intros Hy. apply somefield_go in Hy as [Hy|Hy]; [auto|].
    apply Sf; [exact Hy|]. inversion H; subst. exact H0.
  - cbn [nonnull]. intros Hn. auto.
  - cbn [somefield' vfields]. intros Hn Hv.
    destruct (somefield_pass _ _ _ H Hn) as (l & ->). cbn [fields_of] in Hv.
    apply Sf; [|exact Hv]. destruct e; try discriminate; exact Hn.
Qed.

Lemma nonnull_derives e m v : derives e m v -> nonnull e = true -> m <> [].
Proof. intros H. apply (nonnull_derives_all _ _ _ H). Qed.

Lemma nonnull_run n e i r v : nonnull e = true -> grun n e i = COk r v -> (List.length r < List.length i)%nat.
Proof.
  intros Hn H. apply run_derives in H as (m & -> & Hd). pose proof (nonnull_derives _ _ _ Hd Hn) as Hm.
  rewrite app_length. destruct m; [congruence|cbn; lia].
Qed.

Lemma noerr_run n : forall e i x, noerr e = true -> grun n e i <> CErr x.
Proof.
  induction n as [|n IH]; intros e i x Hn; [discriminate|].
  destruct e as [s| |nm|z| |e es|a b|e|k e|e|f g|p e|e p|e|nm e|c e|nm e]; cbn [Cst.grun noerr] in *; try discriminate.
  - apply IH. apply OK. exact Hn.
  - apply andb_true_iff in Hn as [H1 H2]. pose proof (IH e i) as I1.
    destruct (grun n e i) as [|r1 v1|z|z] eqn:E; try discriminate; [|destruct (I1 z H1); reflexivity].
    pose proof (IH es r1) as I2. destruct (grun n es r1) as [|r2 v2|z|z]; try discriminate. destruct (I2 z H2); reflexivity.
  - pose proof (IH a i) as I1. pose proof (IH b i) as I2. apply orb_true_iff in Hn as [Hn|Hn].
    + destruct (grun n a i) as [|r1 v1|z|z]; try discriminate. destruct (I1 z Hn); reflexivity.
    + destruct (grun n a i) as [|r1 v1|z|z]; try discriminate.
      destruct (grun n b i) as [|r2 v2|z'|z']; try discriminate. destruct (I2 z' Hn); reflexivity.
  - destruct (grun n e i) as [|r1 v1|z|z]; discriminate.
  - destruct (grun n e i) as [|r1 v1|z|z] eqn:E; try discriminate.
    pose proof (nonnull_run _ _ _ _ _ Hn E) as Hl.
    destruct (same_len r1 i) eqn:Es; [apply same_len_spec in Es; lia|].
    pose proof (IH (GLoop k e) r1) as I1. destruct (grun n (GLoop k e) r1) as [|r2 v2|z|z]; try discriminate.
    destruct (I1 z Hn); reflexivity.
  - apply andb_true_iff in Hn as [H1 H2]. pose proof (IH e i) as I1.
    destruct (grun n e i) as [|r1 v1|z|z] eqn:E; try discriminate; [|destruct (I1 z H1); reflexivity].
    pose proof (IH (GLoop KMany1 e) r1) as I2. destruct (grun n (GLoop KMany1 e) r1) as [|r2 v2|z|z]; try discriminate.
    destruct (I2 z H2); reflexivity.
  - destruct (grun n e i); discriminate.
  - pose proof (IH e i) as I1. destruct (grun n e i) as [|r1 v1|z|z] eqn:E; try discriminate. destruct (I1 z Hn); reflexivity.
Qed.

Lemma wf_need e : wf e = true -> (need e <= D)%nat.
Proof. destruct e; cbn [wf]; intros H; apply andb_true_iff in H as [H _]; apply Nat.leb_le in H; exact H. Qed.

Lemma need_pos e : (1 <= need e)%nat.
Proof. destruct e; cbn [need]; lia. Qed.

Lemma grun_total n : forall e i, wf e = true -> (D * List.length i + need e <= n)%nat -> grun n e i <> COut.
Proof.
  induction n as [|n IH]; intros e i Hwf Hn.
  - pose proof (need_pos e). lia.
  - assert (Hshort : forall a u, wf a = true -> (List.length u < List.length i)%nat -> grun n a u <> COut).
    { intros a u Ha Hu. apply IH; [exact Ha|]. pose proof (wf_need a Ha). pose proof (need_pos e).
      assert (D * List.length u + D <= D * List.length i)%nat by nia. lia. }
    assert (Hsame : forall a u, wf a = true -> (List.length u <= List.length i)%nat ->
                                (need a < need e)%nat -> grun n a u <> COut).
    { intros a u Ha Hu Hna. apply IH; [exact Ha|].
      assert (D * List.length u <= D * List.length i)%nat by nia. lia. }
    assert (Hnext : forall a b r v, wf b = true -> grun n a i = COk r v ->
              (nonnull a = false -> need b < need e)%nat -> grun n b r <> COut).
    { intros a b r v Hb E Hnb. destruct (nonnull a) eqn:En.
      - apply Hshort; [exact Hb|]. eapply nonnull_run; eassumption.
      - apply Hsame; [exact Hb| |auto]. eapply run_length; eassumption. }
    pose proof Hwf as Hwf0.
    destruct e as [s| |nm|x| |e es|a b|e|k e|e|f g|p e|e p|e|nm e|c e|nm e]; cbn [Cst.grun wf] in *;
      apply andb_true_iff in Hwf as [_ Hwf].
    + destruct i as [|t u]; [discriminate|]. destruct (sel_eqb (selmaho t) s); discriminate.
    + destruct i; discriminate.
    + destruct i; discriminate.
    + apply Hsame; [apply OK|lia|]. cbn [need]. pose proof (OK x) as (_ & _ & H & _). lia.
    + discriminate.
    + apply andb_true_iff in Hwf as [H1 H2]. pose proof (Hsame e i H1) as I1. cbn [need] in I1, Hnext.
      destruct (grun n e i) as [|r1 v1|z|z] eqn:E; try discriminate; [destruct I1; [lia|lia|reflexivity]|].
      pose proof (Hnext e es r1 v1 H2 E) as I2. destruct (grun n es r1) as [|r2 v2|z|z]; try discriminate.
      intros _. apply I2; [|reflexivity]. intros ->. lia.
    + apply andb_true_iff in Hwf as [H1 H2]. pose proof (Hsame a i H1) as I1. pose proof (Hsame b i H2) as I2. cbn [need] in I1, I2.
      destruct (grun n a i) as [|r1 v1|z|z] eqn:E; try discriminate; [destruct I1; [lia|lia|reflexivity]|].
      destruct (grun n b i) as [|r2 v2|z'|z']; try discriminate. destruct I2; [lia|lia|reflexivity].
    + pose proof (Hsame e i Hwf) as I1. cbn [need] in I1.
      destruct (grun n e i) as [|r1 v1|z|z] eqn:E; try discriminate. destruct I1; [lia|lia|reflexivity].
    + pose proof (Hsame e i Hwf) as I1. cbn [need] in I1.
      destruct (grun n e i) as [|r1 v1|z|z] eqn:E; try discriminate; [destruct I1; [lia|lia|reflexivity]|].
      destruct (same_len r1 i) eqn:Es; [discriminate|].
      assert (Hl : (List.length r1 < List.length i)%nat).
      { pose proof (run_length _ _ _ _ _ E). assert (List.length r1 <> List.length i); [|lia].
        intros H'. apply same_len_spec in H'. congruence. }
      pose proof (Hshort (GLoop k e) r1 Hwf0 Hl) as I2.
      destruct (grun n (GLoop k e) r1) as [|r2 v2|z|z]; try discriminate. congruence.
    + apply andb_true_iff in Hwf as [Hwf Hd]. pose proof (Hsame e i Hwf) as I1. cbn [need] in I1, Hnext.
      destruct (grun n e i) as [|r1 v1|z|z] eqn:E; try discriminate; [destruct I1; [lia|lia|reflexivity]|].
      assert (Hwfl : wf (GLoop KMany1 e) = true) by (cbn [wf need]; rewrite Hd, Hwf; reflexivity).
      pose proof (Hnext e (GLoop KMany1 e) r1 v1 Hwfl E) as I2. cbn [need] in I2.
      destruct (grun n (GLoop KMany1 e) r1) as [|r2 v2|z|z]; try discriminate.
      intros _. apply I2; [|reflexivity]. intros ->. lia.
    + apply andb_true_iff in Hwf as [H1 H2]. pose proof (Hsame f i H1) as I1. pose proof (Hsame g i H2) as I2. cbn [need] in I1, I2.
      destruct (grun n g i) as [|r1 v1|z|z] eqn:E; try discriminate; [destruct I2; [lia|lia|reflexivity]|].
      destruct (grun n f i) as [|r1 v1|z'|z'] eqn:E1; try discriminate; [destruct I1; [lia|lia|reflexivity]|].
      destruct (same_len r1 i) eqn:Es; [discriminate|].
      assert (Hl : (List.length r1 < List.length i)%nat).
      { pose proof (run_length _ _ _ _ _ E1). assert (List.length r1 <> List.length i); [|lia].
        intros H'. apply same_len_spec in H'. congruence. }
      pose proof (Hshort (GManyTill f g) r1 Hwf0 Hl) as I3.
      destruct (grun n (GManyTill f g) r1) as [|r2 v2|z'|z']; try discriminate. congruence.
    + apply andb_true_iff in Hwf as [H1 H2]. pose proof (Hsame p i H1) as I1. pose proof (Hsame e i H2) as I2. cbn [need] in I1, I2.
      destruct (grun n p i) as [|r1 v1|z|z] eqn:E; try discriminate; [destruct I1; [lia|lia|reflexivity]|].
      apply I2; lia.
    + apply andb_true_iff in Hwf as [H1 H2]. pose proof (Hsame e i H1) as I1. cbn [need] in I1, Hnext.
      destruct (grun n e i) as [|r1 v1|z|z] eqn:E; try discriminate; [destruct I1; [lia|lia|reflexivity]|].
      pose proof (Hnext e p r1 v1 H2 E) as I2. destruct (grun n p r1) as [|r2 v2|z|z]; try discriminate.
      intros _. apply I2; [|reflexivity]. intros ->. lia.
    + pose proof (Hsame e i Hwf) as I1. cbn [need] in I1.
      destruct (grun n e i) as [|r1 v1|z|z] eqn:E; try discriminate. destruct I1; [lia|lia|reflexivity].
    + pose proof (Hsame e i Hwf) as I1. cbn [need] in I1.
      destruct (grun n e i) as [|r1 v1|z|z] eqn:E; try discriminate; [destruct I1; [lia|lia|reflexivity]|].
      destruct (same_len r1 i); discriminate.
    + pose proof (Hsame e i Hwf) as I1. cbn [need] in I1.
      destruct (grun n e i) as [|r1 v1|z|z] eqn:E; try discriminate; [destruct I1; [lia|lia|reflexivity]|].
      destruct (holds c v1); discriminate.
    + pose proof (Hsame e i Hwf) as I1. cbn [need] in I1.
      destruct (grun n e i) as [|r1 v1|z|z] eqn:E; try discriminate. destruct I1; [lia|lia|reflexivity].
Qed.
End Cert.
End Meta.

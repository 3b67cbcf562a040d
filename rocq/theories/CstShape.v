(** CstShape.v -- the parser sees nothing of a token but its class. *)
From Verif Require Import Base Span Selmaho Lex Cst CstRules CstApi CstMeta SpecCst.
From Coq Require Import Lia Arith.

Notation toks_like := (Forall2 same_class).

Definition res_like (a b : cres) : Prop :=
  match a, b with
  | COut, COut => True
  | COk r v, COk r' v' => toks_like r r' /\ same_shape v v'
  | CErr x, CErr y | CFail x, CFail y => same_error x y
  | _, _ => False
  end.

Lemma like_length i j : toks_like i j -> List.length i = List.length j.
Proof. induction 1; cbn; congruence. Qed.

Lemma like_same_len a b a' b' : toks_like a a' -> toks_like b b' -> same_len a b = same_len a' b'.
Proof. intros H1 H2. unfold same_len. rewrite (like_length _ _ H1), (like_length _ _ H2). reflexivity. Qed.

Lemma fields_like v w : same_shape v w -> Forall2 same_shape (fields_of v) (fields_of w).
Proof. intros H. inversion H; subst; cbn; auto. Qed.

Lemma vcons_like v v' w w' : same_shape v v' -> same_shape w w' -> same_shape (vcons v w) (vcons v' w').
Proof. intros H1 H2. constructor. constructor; [exact H1|apply fields_like, H2]. Qed.

Lemma holds_like c v w : same_shape v w -> holds c v = holds c w.
Proof.
  intros H. destruct c as [|l]; inversion H as [t u Ht|nm a b|nm l1 l2 F|l1 l2 F]; subst; cbn; try reflexivity.
  - clear H. induction F as [|x y xs ys Hxy F IH]; [reflexivity|]. cbn. f_equal; [|exact IH].
    inversion Hxy as [| | |k k' F']; subst; try reflexivity. inversion F'; reflexivity.
  - inversion F as [|x y xs ys Hxy F']; subst; [reflexivity|].
    inversion Hxy; subst; inversion F'; subst; try reflexivity. rewrite H0. reflexivity.
Qed.

Lemma same_place i (t u : token) l l' : (exists m, i = m ++ t :: l) -> (exists m, i = m ++ u :: l') -> List.length l = List.length l' -> t = u.
Proof.
  intros (m & ->) (m' & E) Hl.
  assert (Hm : List.length m = List.length m').
  { apply (f_equal (@List.length token)) in E. rewrite !app_length in E. cbn in E. lia. }
  revert m' E Hm. induction m as [|x m IH]; intros [|x' m'] E Hm; cbn in *; try discriminate.
  - injection E as -> _. reflexivity.
  - injection E as _ E. eapply IH; [exact E|lia].
Qed.

Lemma err_or_like i j a b a' b' : err_ok i a -> err_ok i b -> err_ok j a' -> err_ok j b' ->
  same_error a a' -> same_error b b' -> same_error (err_or a b) (err_or a' b').
Proof.
  intros Ka Kb Ka' Kb' [La Ca] [Lb Cb]. unfold err_or. rewrite (like_length _ _ La), (like_length _ _ Lb).
  destruct (Nat.ltb_spec (List.length (location a')) (List.length (location b'))); [split; assumption|].
  destruct (Nat.ltb_spec (List.length (location b')) (List.length (location a'))); [split; assumption|].
  assert (HL : List.length (location a') = List.length (location b')) by lia.
  assert (HL' : List.length (location a) = List.length (location b)) by (rewrite (like_length _ _ La), (like_length _ _ Lb); exact HL).
  unfold err_ok in *.
  destruct (cerr a) as [la [ta|]| |ka|na] eqn:Ea, (cerr a') as [la' [ta'|]| |ka'|na'] eqn:Ea'; try contradiction; try discriminate;
  destruct (cerr b) as [lb [tb|]| |kb|nb] eqn:Eb, (cerr b') as [lb' [tb'|]| |kb'|nb'] eqn:Eb'; try contradiction; try discriminate;
  cbn [otoken_eqb]; try (split; [exact Lb|rewrite Eb, Eb'; exact Cb]).
  - assert (ta = tb) by (eapply same_place; [apply Ka|apply Kb|exact HL']). subst tb.
    assert (ta' = tb') by (eapply same_place; [apply Ka'|apply Kb'|exact HL]). subst tb'.
    rewrite !token_eqb_refl. split; [exact La|]. cbn. destruct Ca as [-> Ct], Cb as [-> _]. auto.
  - split; [exact La|]. cbn. subst. reflexivity.
Qed.

Section Rules.
Context {nt : Type} (rule : nt -> gexp nt).
Notation grun := (grun rule).

Lemma run_like n : forall e i j, toks_like i j -> res_like (grun n e i) (grun n e j).
Proof.
  induction n as [|n IH]; intros e i j H; [exact I|].
  pose proof (fun e i j (H : toks_like i j) => IH e i j H) as R.
  assert (Hcons : forall es r r' v v', toks_like r r' -> same_shape v v' ->
    res_like (match grun n es r with COk r' w => COk r' (vcons v w) | other => other end)
             (match grun n es r' with COk r' w => COk r' (vcons v' w) | other => other end)).
  { intros es r r' v v' Hr Hv. specialize (IH es r r' Hr). destruct (grun n es r), (grun n es r'); cbn in *; auto.
    destruct IH. split; [assumption|]. apply vcons_like; assumption. }
  assert (Hself : forall i j c, toks_like i j -> (forall l g, c <> ExpectedGot l g) -> same_error (mkerr i c) (mkerr j c)).
  { intros i0 j0 c Hij Hc. split; [exact Hij|]. cbn. destruct c as [l g| | |]; auto. destruct (Hc l g); reflexivity. }
  destruct e as [s| |nm|z| |e es|a b|e|k e|e|f g|p e|e p|e|nm e|c e|nm e]; cbn [Cst.grun].
  - inversion H as [|t u i' j' Htu Hij]; subst; cbn; [split; [constructor|cbn; reflexivity]|].
    unfold same_class in Htu. rewrite Htu. destruct (sel_eqb (selmaho u) s); cbn; split; cbn; auto. constructor. exact Htu.
  - inversion H as [|t u i' j' Htu Hij]; subst; cbn; [split; [constructor|reflexivity]|]. split; [exact Hij|constructor; exact Htu].
  - inversion H as [|t u i' j' Htu Hij]; subst; cbn; [split; [constructor|reflexivity]|]. split; [exact Hij|constructor].
  - apply IH, H.
  - split; [exact H|constructor; constructor].
  - specialize (R e i j H). destruct (grun n e i), (grun n e j); cbn in R |- *; try contradiction; auto. destruct R. apply Hcons; assumption.
  - pose proof (R a i j H) as Ra. pose proof (R b i j H) as Rb.
    pose proof (fun x => run_err_ok rule n a i x) as Oa. pose proof (fun x => run_err_ok rule n b i x) as Ob.
    pose proof (fun x => run_err_ok rule n a j x) as Oa'. pose proof (fun x => run_err_ok rule n b j x) as Ob'.
    destruct (grun n a i), (grun n a j); cbn in Ra |- *; try contradiction; auto.
    destruct (grun n b i), (grun n b j); cbn in Rb |- *; try contradiction; auto.
    eapply err_or_like; [apply Oa|apply Ob|apply Oa'|apply Ob'| |]; cbn; auto.
  - specialize (R e i j H). destruct (grun n e i), (grun n e j); cbn in R |- *; try contradiction; auto.
    + destruct R. split; [assumption|]. constructor. constructor; [assumption|constructor].
    + split; [exact H|constructor; constructor].
  - specialize (R e i j H). destruct (grun n e i) as [|r v|x|x], (grun n e j) as [|r' v'|x'|x']; cbn in R |- *; try contradiction; auto.
    + destruct R as [R1 R2]. rewrite (like_same_len _ _ _ _ R1 H). destruct (same_len r' j).
      * apply Hself; [exact H|discriminate].
      * apply Hcons; assumption.
    + split; [exact H|constructor; constructor].
  - specialize (R e i j H). destruct (grun n e i), (grun n e j); cbn in R |- *; try contradiction; auto. destruct R. apply Hcons; assumption.
  - pose proof (R g i j H) as Rg. pose proof (R f i j H) as Rf.
    destruct (grun n g i) as [|r v|x|x], (grun n g j) as [|r' v'|x'|x']; cbn in Rg |- *; try contradiction; auto.
    + destruct Rg. split; [assumption|]. constructor. constructor; [constructor; constructor|]. constructor; [assumption|constructor].
    + destruct (grun n f i) as [|r v|y|y], (grun n f j) as [|r' v'|y'|y']; cbn in Rf |- *; try contradiction; auto.
      destruct Rf as [R1 R2]. rewrite (like_same_len _ _ _ _ R1 H). destruct (same_len r' j); [apply Hself; [exact R1|discriminate]|].
      pose proof (R (GManyTill f g) r r' R1) as Rt.
      destruct (grun n (GManyTill f g) r) as [|r1 v1|y1|y1], (grun n (GManyTill f g) r') as [|r1' v1'|y1'|y1']; cbn in Rt |- *; try contradiction; auto.
      destruct Rt as [T1 T2]. split; [exact T1|].
      inversion T2 as [| | |l l' F]; subst; auto.
      inversion F as [|a0 b0 xs ys Hab F1]; subst; auto.
      inversion Hab as [| | |l1 l1' F2]; subst; auto.
      * inversion F1 as [|a1 b1 xs1 ys1 Hab1 F3]; subst; auto. inversion F3; subst; auto.
        constructor. constructor; [constructor; constructor; assumption|]. constructor; [assumption|constructor].
  - pose proof (R p i j H) as Rp. destruct (grun n p i), (grun n p j); cbn in Rp |- *; try contradiction; auto.
    apply Hself; [exact H|discriminate].
  - specialize (R e i j H). destruct (grun n e i) as [|r v|x|x], (grun n e j) as [|r' v'|x'|x']; cbn in R |- *; try contradiction; auto.
    destruct R as [R1 R2]. pose proof (IH p r r' R1) as Rp. destruct (grun n p r), (grun n p r'); cbn in Rp |- *; try contradiction; auto.
    apply Hself; [exact R1|discriminate].
  - specialize (R e i j H). destruct (grun n e i), (grun n e j); cbn in R |- *; try contradiction; auto.
  - specialize (R e i j H). destruct (grun n e i) as [|r v|x|x], (grun n e j) as [|r' v'|x'|x']; cbn in R |- *; try contradiction; auto.
    destruct R as [R1 R2]. rewrite (like_same_len _ _ _ _ R1 H). destruct (same_len r' j); [apply Hself; [exact H|discriminate]|]. split; assumption.
  - specialize (R e i j H). destruct (grun n e i) as [|r v|x|x], (grun n e j) as [|r' v'|x'|x']; cbn in R |- *; try contradiction; auto.
    destruct R as [R1 R2]. rewrite (holds_like _ _ _ R2). destruct (holds c v'); [split; assumption|apply Hself; [exact H|discriminate]].
  - specialize (R e i j H). destruct (grun n e i) as [|r v|x|x], (grun n e j) as [|r' v'|x'|x']; cbn in R |- *; try contradiction; auto.
    destruct R as [R1 R2]. split; [exact R1|]. constructor. apply fields_like, R2.
Qed.
End Rules.

Lemma cst_parse_like s t : toks_like s t ->
  match cst_parse s, cst_parse t with
  | Ret (inl v), Ret (inl w) => same_shape v w
  | Ret (inr x), Ret (inr y) => same_error x y
  | Diverge, Diverge => True
  | _, _ => False
  end.
Proof.
  intros H. unfold cst_parse, cst_fuel. rewrite (like_length _ _ H).
  pose proof (run_like crule (CST_D * S (List.length t)) al_Root s t H) as R.
  destruct (Cst.grun crule _ al_Root s) as [|r v|x|x], (Cst.grun crule _ al_Root t) as [|r' v'|x'|x']; cbn in R |- *; try contradiction; auto.
  destruct R as [R1 R2]. inversion R1 as [|a b r1 r1' Hab Hr]; subst; [exact R2|]. split; [constructor; assumption|reflexivity].
Qed.

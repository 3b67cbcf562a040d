(** CostThms.v -- the counted run is the run; the y's take exponentially many calls. *)
From Verif Require Import Base Utf8 Span Peg Rules RulesApi PegMeta RulesTotal PegChars PegSim SymPeg Decompose DecomposeSpec DecomposeFacts SpecText SpecMorph MorphFacts MorphCons MorphCmavo DecMorph Cost.
From Coq Require Import Lia Arith.

Section Fst.
Context {nt : Type} (rule : nt -> pexp nt).

Lemma fst_plus k c : fst (plus_count k c) = fst c.
Proof. reflexivity. Qed.

Lemma crun_run n : forall e s, fst (crun rule n e s) = run rule n e s.
Proof.
  induction n as [|n IH]; intros e s; [reflexivity|].
  assert (Hseq : forall es s first last rest, fst (cseq_tail (crun rule n) es s first last rest) = seq_tail (run rule n) es s first last rest).
  { induction es as [|a es IHes]; intros; cbn [cseq_tail seq_tail]; [reflexivity|]. cbv zeta. rewrite IH. destruct (run rule n a rest); try reflexivity. rewrite fst_plus. apply IHes. }
  assert (Hor : forall es s, fst (cor_list (crun rule n) es s) = or_list (run rule n) es s).
  { induction es as [|a es IHes]; intros; cbn [cor_list or_list]; [reflexivity|]. cbv zeta. rewrite IH. destruct (run rule n a s0); try reflexivity. rewrite fst_plus. apply IHes. }
  assert (Hlong : forall es s best, fst (clongest_list (crun rule n) es s best) = longest_list (run rule n) es s best).
  { induction es as [|a es IHes]; intros; cbn [clongest_list longest_list]; [reflexivity|]. cbv zeta. rewrite IH. destruct (run rule n a s0); try reflexivity; rewrite fst_plus; [apply IHes|].
    destruct best as [[m0 r0]|]; [|apply IHes]. destruct (s_len rest <? s_len r0); apply IHes. }
  assert (Hrep : forall a k min s rest first last num, fst (crep_loop (crun rule n a) k min s rest first last num) = rep_loop (run rule n a) k min s rest first last num).
  { induction k as [|k IHk]; intros; cbn [crep_loop rep_loop]; [reflexivity|]. cbv zeta. rewrite IH. destruct (run rule n a rest); try reflexivity. rewrite fst_plus. apply IHk. }
  destruct e; cbn [crun run]; cbv zeta; try reflexivity.
  - cbn [fst]. rewrite IH. reflexivity.
  - cbn [fst]. rewrite IH. reflexivity.
  - apply Hor.
  - apply Hlong.
  - rewrite IH. destruct (run rule n e s); try reflexivity. rewrite fst_plus. apply Hseq.
  - apply Hrep.
  - rewrite IH. destruct (run rule n e1 s); try reflexivity. cbn [fst]. rewrite IH. reflexivity.
  - rewrite IH. destruct (run rule n e1 s); try reflexivity. cbn [fst]. rewrite IH. reflexivity.
  - rewrite IH. destruct (run rule n e1 s); try reflexivity. rewrite fst_plus. apply IH.
  - rewrite fst_plus. apply IH.
Qed.
End Fst.

(** ** y's *)
Definition ys (k : nat) : list char := repeat 121 k.

Lemma run_ev n e s : wfe e = true -> (RULES_D * List.length (txt s) + need nn nd e <= n)%nat ->
  match ev e (txt s) with
  | None => run rule n e s = Fail
  | Some r => exists m r', run rule n e s = Match m r' /\ txt r' = r
  end.
Proof.
  intros Hw Hn. pose proof (prun_total rule nn nd RULES_D rules_ok n e (txt s) Hw Hn) as Ht.
  pose proof (ev_any n e (txt s) Hw Ht) as He. pose proof (run_prun rule n e s) as Ha. rewrite <- He.
  destruct (prun rule n e (txt s)) as [| |r]; cbn [to_opt agrees] in *; [congruence|exact Ha|].
  destruct Ha as (m & _ & ->). eexists _, _. split; [reflexivity|reflexivity].
Qed.

Lemma next_y u : next_char (121 :: u) = Some (121, u).
Proof. reflexivity. Qed.

Lemma ev_diph_y u : ev (Call N_diphthong) (121 :: u) = None.
Proof.
  apply (sx_all_fail (Some ([121], [])) 30 (Call N_diphthong) []); [vm_compute; reflexivity|apply wfe_call|].
  apply (inst_has [121] [] [] [] (121 :: u)); [constructor|]. split; [|discriminate]. exists 121, u. split; [reflexivity|left; reflexivity].
Qed.

Lemma ev_nuc_y u : ev (Call N_nucleus) (121 :: u) = match ev (Call N_nucleus) u with Some _ => None | None => Some u end.
Proof.
  rewrite ev_Call. change (rule N_nucleus) with (Or [Call N_vowel; Call N_diphthong; AndNot (Call N_y) (Call N_nucleus)]).
  rewrite ev_Or by reflexivity. cbn [evor]. rewrite ev_diph_y. rewrite (ev_Call _ N_vowel).
  change (rule N_vowel) with (AndNot (One (lit "aAeEiIoOuUyY")) (Call N_nucleus)).
  rewrite !ev_AndNot by reflexivity. rewrite (ev_Call _ N_y). change (rule N_y) with (@One nt (lit "yY")). rewrite !ev_One, next_y.
  change (mem_char 121 (lit "aAeEiIoOuUyY")) with true. change (mem_char 121 (lit "yY")) with true. cbv iota.
  destruct (ev (Call N_nucleus) u); reflexivity.
Qed.

Lemma ev_nuc_ys k : is_some (ev (Call N_nucleus) (ys k)) = Nat.odd k.
Proof.
  induction k as [|k IH]; [vm_compute; reflexivity|]. change (ys (S k)) with (121 :: ys k). rewrite ev_nuc_y, Nat.odd_succ, <- Nat.negb_odd, <- IH.
  destruct (ev (Call N_nucleus) (ys k)); reflexivity.
Qed.

Lemma run_one_y chs s u n : txt s = 121 :: u -> mem_char 121 chs = true -> exists m r, run rule (S n) (One chs) s = Match m r /\ txt r = u.
Proof.
  intros Es Hm. cbn [run]. pose proof (run_one_agrees chs s) as A. rewrite Es, next_y, Hm in A. destruct A as (m & _ & ->). eexists _, _. split; [reflexivity|reflexivity].
Qed.

Lemma crun_Call n x s : crun rule (S n) (Call x) s = plus_count 1 (crun rule n (rule x) s).
Proof. reflexivity. Qed.
Lemma crun_Or n es s : crun rule (S n) (Or es) s = cor_list (crun rule n) es s.
Proof. reflexivity. Qed.
Lemma crun_AndNot n e p s : crun rule (S n) (AndNot e p) s =
  match fst (crun rule n e s) with
  | Match m r => (match fst (crun rule n p r) with Match _ _ => Fail | Fail => Match m r | other => other end,
                  snd (crun rule n e s) + snd (crun rule n p r))
  | other => (other, snd (crun rule n e s))
  end.
Proof. reflexivity. Qed.
Lemma cor_head f e es s : snd (f e s) <= snd (@cor_list nt f (e :: es) s).
Proof. cbn [cor_list]. cbv zeta. destruct (fst (f e s)); unfold plus_count; cbn [snd]; lia. Qed.
Lemma cor_skip f e es s : fst (f e s) = Fail -> snd (@cor_list nt f (e :: es) s) = snd (f e s) + snd (cor_list f es s).
Proof. intros H. cbn [cor_list]. cbv zeta. rewrite H. reflexivity. Qed.
Lemma snd_plus k c : snd (plus_count k c) = k + snd c.
Proof. reflexivity. Qed.
Lemma rule_nucleus : rule N_nucleus = Or [Call N_vowel; Call N_diphthong; AndNot (Call N_y) (Call N_nucleus)].
Proof. reflexivity. Qed.
Lemma rule_vowel : rule N_vowel = AndNot (One (lit "aAeEiIoOuUyY")) (Call N_nucleus).
Proof. reflexivity. Qed.
Lemma rule_y : rule N_y = One (lit "yY").
Proof. reflexivity. Qed.

(** the second expression runs on what the first one leaves *)
Lemma andnot_second n e p s m r : run rule n e s = Match m r -> snd (crun rule n p r) <= snd (crun rule (S n) (AndNot e p) s).
Proof. intros H. rewrite crun_AndNot, crun_run, H. cbn [snd]. lia. Qed.
Lemma run_Call n x s : run rule (S n) (Call x) s = run rule n (rule x) s.
Proof. reflexivity. Qed.

Definition NUC_NEED : nat := 60.
Lemma vowel_need : (need nn nd (Call N_vowel) <= 40)%nat.
Proof. apply Nat.leb_le. vm_compute. reflexivity. Qed.
Lemma diph_need : (need nn nd (Call N_diphthong) <= 40)%nat.
Proof. apply Nat.leb_le. vm_compute. reflexivity. Qed.

Lemma run_none n e s : wfe e = true -> (RULES_D * List.length (txt s) + need nn nd e <= n)%nat -> ev e (txt s) = None -> fst (crun rule n e s) = Fail.
Proof. intros H1 H2 H3. rewrite crun_run. pose proof (run_ev n e s H1 H2) as X. rewrite H3 in X. exact X. Qed.

Lemma ev_vowel_y k : Nat.odd k = true -> ev (Call N_vowel) (121 :: ys k) = None.
Proof.
  intros Ek. rewrite ev_Call, rule_vowel, ev_AndNot by reflexivity. rewrite ev_One, next_y.
  change (mem_char 121 (lit "aAeEiIoOuUyY")) with true. cbv iota. pose proof (ev_nuc_ys k) as Y. rewrite Ek in Y. destruct (ev (Call N_nucleus) (ys k)); [reflexivity|discriminate].
Qed.

Lemma nuc_calls k : forall f s, txt s = ys k -> (RULES_D * k + NUC_NEED <= f)%nat -> 2 ^ N.of_nat (Nat.div2 k) <= snd (crun rule f (Call N_nucleus) s).
Proof.
  induction k as [|k IH]; intros f s Es Hf.
  - destruct f as [|f]; [unfold NUC_NEED in Hf; lia|]. rewrite crun_Call, snd_plus. change (2 ^ N.of_nat (Nat.div2 0)) with 1. lia.
  - change (ys (S k)) with (121 :: ys k) in Es.
    assert (Hf' : (RULES_D * k + 220 <= f)%nat) by (unfold NUC_NEED, RULES_D in *; lia). clear Hf.
    destruct f as [|f]; [lia|]. rewrite crun_Call, snd_plus, rule_nucleus.
    destruct f as [|f]; [lia|]. rewrite crun_Or.
    assert (Ln : (RULES_D * List.length (txt s) + 40 <= f)%nat) by (rewrite Es; cbn [List.length]; unfold ys; rewrite repeat_length; unfold RULES_D in *; lia).
    assert (V : 2 ^ N.of_nat (Nat.div2 k) <= snd (crun rule f (Call N_vowel) s)).
    { destruct f as [|f]; [lia|]. rewrite crun_Call, snd_plus, rule_vowel. destruct f as [|f]; [lia|].
      destruct f as [|f]; [lia|]. destruct (run_one_y (lit "aAeEiIoOuUyY") s (ys k) f Es eq_refl) as (m & r & E1 & E2).
      pose proof (andnot_second (S f) _ (Call N_nucleus) s m r E1) as X.
      assert (I := IH (S f) r E2 ltac:(unfold NUC_NEED; lia)). lia. }
    destruct (Nat.odd k) eqn:Ek.
    + assert (F1 : fst (crun rule f (Call N_vowel) s) = Fail).
      { apply run_none; [apply wfe_call|pose proof vowel_need; lia|]. rewrite Es. apply ev_vowel_y, Ek. }
      assert (F2 : fst (crun rule f (Call N_diphthong) s) = Fail).
      { apply run_none; [apply wfe_call|pose proof diph_need; lia|]. rewrite Es. apply ev_diph_y. }
      assert (H3 : 2 ^ N.of_nat (Nat.div2 k) <= snd (crun rule f (AndNot (Call N_y) (Call N_nucleus)) s)).
      { destruct f as [|f]; [lia|]. destruct f as [|f]; [lia|]. destruct f as [|f]; [lia|]. destruct (run_one_y (lit "yY") s (ys k) f Es eq_refl) as (m & r & E1 & E2).
        assert (E3 : run rule (S (S f)) (Call N_y) s = Match m r) by (rewrite run_Call, rule_y; exact E1).
        pose proof (andnot_second _ _ (Call N_nucleus) s m r E3) as X.
        assert (I := IH (S (S f)) r E2 ltac:(unfold NUC_NEED; lia)). lia. }
      assert (P : 2 ^ N.of_nat (Nat.div2 (S k)) = 2 * 2 ^ N.of_nat (Nat.div2 k)).
      { apply Nat.odd_spec in Ek as (j & ->). replace (S (2 * j + 1)) with (2 * S j)%nat by lia. rewrite Nat.div2_double.
        replace (2 * j + 1)%nat with (S (2 * j)) by lia. rewrite Nat.div2_succ_double. rewrite Nat2N.inj_succ, N.pow_succ_r'. reflexivity. }
      rewrite !cor_skip by assumption.
      pose proof (cor_head (crun rule f) (AndNot (Call N_y) (Call N_nucleus)) [] s). lia.
    + assert (P : Nat.div2 (S k) = Nat.div2 k).
      { assert (Ev : Nat.even k = true) by (rewrite <- Nat.negb_odd, Ek; reflexivity). apply Nat.even_spec in Ev as (j & ->). rewrite Nat.div2_double. apply Nat.div2_succ_double. }
      rewrite P. pose proof (cor_head (crun rule f) (Call N_vowel) [Call N_diphthong; AndNot (Call N_y) (Call N_nucleus)] s). lia.
Qed.

(** ** From the chunk to the nucleus *)
Lemma crun_NotThen n p e s : fst (crun rule n p s) = Fail -> snd (crun rule n e s) <= snd (crun rule (S n) (NotThen p e) s).
Proof. intros H. cbn [crun]. cbv zeta. rewrite H, snd_plus. lia. Qed.
Lemma clongest_in f e es s : In e es -> (forall a, In a es -> fst (f a s) <> Out /\ fst (f a s) <> Boom) -> forall best, snd (f e s) <= snd (@clongest_list nt f es s best).
Proof.
  intros He Hf. induction es as [|a es IH]; intros best; [destruct He|]. cbn [clongest_list]. cbv zeta.
  destruct (Hf a (or_introl eq_refl)) as [N1 N2]. destruct He as [->|He].
  - destruct (fst (f e s)); try congruence; rewrite snd_plus; lia.
  - specialize (IH He (fun b Hb => Hf b (or_intror Hb))). destruct (fst (f a s)); try congruence; rewrite snd_plus.
    + specialize (IH best). lia.
    + destruct best as [[m0 r0]|]; [destruct (s_len rest <? s_len r0)|]; match goal with |- _ <= _ + snd (clongest_list _ _ _ ?b) => specialize (IH b) end; lia.
Qed.
Lemma crun_Longest n e es s : In e es -> (forall a, In a es -> run rule n a s <> Out /\ run rule n a s <> Boom) -> snd (crun rule n e s) <= snd (crun rule (S n) (Longest es) s).
Proof. intros He Hf. cbn [crun]. apply clongest_in; [exact He|]. intros a Ha. rewrite crun_run. apply Hf, Ha. Qed.
Lemma run_good n e s : wfe e = true -> (RULES_D * List.length (txt s) + need nn nd e <= n)%nat -> run rule n e s <> Out /\ run rule n e s <> Boom.
Proof.
  intros H1 H2. pose proof (run_ev n e s H1 H2) as X. destruct (ev e (txt s)); [destruct X as (m & r & -> & _)|rewrite X]; split; discriminate.
Qed.
Lemma crun_Seq_tail n e es s m r : run rule n e s = Match m r -> exists a b, snd (cseq_tail (crun rule n) es s a b r) <= snd (crun rule (S n) (Seq e es) s).
Proof. intros H. exists (ptr m), (ptr m + s_len m). cbn [crun]. cbv zeta. rewrite crun_run, H, snd_plus. lia. Qed.
Lemma cseq_first f e es s a b r : snd (f e r) <= snd (@cseq_tail nt f (e :: es) s a b r).
Proof. cbn [cseq_tail]. cbv zeta. destruct (fst (f e r)); rewrite ?snd_plus; cbn [snd]; lia. Qed.
Lemma cseq_skip f e es s a b r m r' : fst (f e r) = Match m r' -> exists b', snd (@cseq_tail nt f es s a b' r') <= snd (@cseq_tail nt f (e :: es) s a b r).
Proof. intros H. exists (ptr m + s_len m). cbn [cseq_tail]. cbv zeta. rewrite H, snd_plus. lia. Qed.
Lemma crun_Seq_head n e es s : snd (crun rule n e s) <= snd (crun rule (S n) (Seq e es) s).
Proof. cbn [crun]. cbv zeta. destruct (fst (crun rule n e s)); rewrite ?snd_plus; cbn [snd]; lia. Qed.
Lemma crun_Repeat n k e s : snd (crun rule n e s) <= snd (crun rule (S n) (Repeat k e) s).
Proof. cbn [crun crep_loop]. cbv zeta. destruct (fst (crun rule n e s)); rewrite ?snd_plus; cbn [snd]; lia. Qed.

Definition y_tail : tailspec := Some ([121], []).
Lemma tail_y u : tail_ok y_tail (121 :: u).
Proof. split; [|discriminate]. exists 121, u. split; [reflexivity|left; reflexivity]. Qed.

Lemma rule_cmavo_minimal : rule N_cmavo_minimal = NotThen (Call N_cvcy_lujvo) (Call N_cmavo_form).
Proof. reflexivity. Qed.
Lemma rule_cmavo_form' : rule N_cmavo_form = Longest [Call N_digit; Repeat 1 (Call N_y); CF3].
Proof. reflexivity. Qed.
Definition CFL : pexp nt := or![seq![(Not N_stressed); N_nucleus]; seq![N_nucleus; (Not N_cluster)]].
Lemma CF3_eq : CF3 = Seq (Not (Call N_h)) [Not (Call N_cluster); Call N_onset; Repeat 0 (Seq (Call N_nucleus) [Call N_h]); CFL].
Proof. reflexivity. Qed.

Lemma y_fails e u : all_fail (sx y_tail 30 e []) = true -> wfe e = true -> ev e (121 :: u) = None.
Proof. intros H Hw. apply (sx_all_fail y_tail 30 e []); [exact H|exact Hw|]. apply (inst_has [121] [] [] [] (121 :: u)); [constructor|apply tail_y]. Qed.
Lemma y_stays e u : all_ok 0 (sx y_tail 30 e []) = true -> wfe e = true -> ev e (121 :: u) = Some (121 :: u).
Proof. intros H Hw. apply (sx_all_ok y_tail 30 e [] 0 (121 :: u)); [exact H|exact Hw|]. apply (inst_has [121] [] [] [] (121 :: u)); [constructor|apply tail_y]. Qed.

Lemma run_stay n e s : wfe e = true -> (RULES_D * List.length (txt s) + need nn nd e <= n)%nat -> ev e (txt s) = Some (txt s) -> exists m r, run rule n e s = Match m r /\ txt r = txt s.
Proof. intros H1 H2 H3. pose proof (run_ev n e s H1 H2) as X. rewrite H3 in X. exact X. Qed.

Definition small (e : pexp nt) : bool := wfe e && Nat.leb (need nn nd e) 130.
Lemma small_ok : forallb small [Call N_cvcy_lujvo; Call N_digit; Repeat 1 (Call N_y); CF3; Not (Call N_h); Not (Call N_cluster); Call N_onset] = true.
Proof. vm_compute. reflexivity. Qed.
Lemma small_in e : In e [Call N_cvcy_lujvo; Call N_digit; Repeat 1 (Call N_y); CF3; Not (Call N_h); Not (Call N_cluster); Call N_onset] ->
  wfe e = true /\ (need nn nd e <= 130)%nat.
Proof. intros H. pose proof (forallb_in _ _ _ small_ok H) as X. unfold small in X. apply andb_true_iff in X as [X1 X2]. apply Nat.leb_le in X2. auto. Qed.

Lemma cmavo_calls k s : txt s = ys (S k) -> 2 ^ N.of_nat (Nat.div2 (S k)) <= calls_of N_cmavo_minimal s.
Proof.
  intros Es. unfold calls_of, rules_fuel. assert (Hl : List.length (txt s) = S k) by (rewrite Es; unfold ys; apply repeat_length). rewrite Hl.
  assert (Es' : txt s = 121 :: ys k) by (rewrite Es; reflexivity).
  remember (RULES_D * S (S k))%nat as f eqn:Ef.
  assert (Hf : (RULES_D * S k + 150 <= f)%nat) by (subst f; unfold RULES_D; lia). clear Ef.
  destruct f as [|f]; [lia|]. rewrite crun_Call, snd_plus, rule_cmavo_minimal.
  destruct f as [|f]; [lia|].
  assert (F1 : fst (crun rule f (Call N_cvcy_lujvo) s) = Fail).
  { destruct (small_in (Call N_cvcy_lujvo)) as [W1 W2]; [cbn; tauto|]. apply run_none; [exact W1|rewrite Hl; lia|]. rewrite Es'. apply y_fails; [vm_compute; reflexivity|exact W1]. }
  pose proof (crun_NotThen f _ (Call N_cmavo_form) s F1) as H1.
  destruct f as [|f]; [lia|]. rewrite crun_Call, snd_plus, rule_cmavo_form' in H1.
  destruct f as [|f]; [lia|].
  assert (H2 : snd (crun rule f CF3 s) <= snd (crun rule (S f) (Longest [Call N_digit; Repeat 1 (Call N_y); CF3]) s)).
  { apply crun_Longest; [cbn; tauto|]. intros a Ha. destruct (small_in a) as [W1 W2]; [cbn in Ha |- *; tauto|]. apply run_good; [exact W1|rewrite Hl; lia]. }
  destruct f as [|f]; [lia|]. 
  rewrite CF3_eq in H1, H2.
  destruct (small_in (Not (Call N_h))) as [W1 W2]; [cbn; tauto|].
  destruct (run_stay f (Not (Call N_h)) s W1) as (m1 & r1 & R1 & T1); [rewrite Hl; lia|rewrite Es'; apply y_stays; [vm_compute; reflexivity|exact W1]|].
  destruct (crun_Seq_tail f _ [Not (Call N_cluster); Call N_onset; Repeat 0 (Seq (Call N_nucleus) [Call N_h]); CFL] s m1 r1 R1) as (a & b & H3).
  destruct (small_in (Not (Call N_cluster))) as [W3 W4]; [cbn; tauto|].
  destruct (run_stay f (Not (Call N_cluster)) r1 W3) as (m2 & r2 & R2 & T2); [rewrite T1, Hl; lia|rewrite T1, Es'; apply y_stays; [vm_compute; reflexivity|exact W3]|].
  rewrite <- crun_run in R2.
  destruct (cseq_skip (crun rule f) _ [Call N_onset; Repeat 0 (Seq (Call N_nucleus) [Call N_h]); CFL] s a b r1 m2 r2 R2) as (b1 & H4).
  destruct (small_in (Call N_onset)) as [W5 W6]; [cbn; tauto|].
  destruct (run_stay f (Call N_onset) r2 W5) as (m3 & r3 & R3 & T3); [rewrite T2, T1, Hl; lia|rewrite T2, T1, Es'; apply y_stays; [vm_compute; reflexivity|exact W5]|].
  rewrite <- crun_run in R3.
  destruct (cseq_skip (crun rule f) _ [Repeat 0 (Seq (Call N_nucleus) [Call N_h]); CFL] s a b1 r2 m3 r3 R3) as (b2 & H5).
  pose proof (cseq_first (crun rule f) (Repeat 0 (Seq (Call N_nucleus) [Call N_h])) [CFL] s a b2 r3) as H6.
  destruct f as [|f]; [lia|]. pose proof (crun_Repeat f 0 (Seq (Call N_nucleus) [Call N_h]) r3) as H7.
  destruct f as [|f]; [lia|]. pose proof (crun_Seq_head f (Call N_nucleus) [Call N_h] r3) as H8.
  assert (H9 := nuc_calls (S k) f r3 ltac:(rewrite T3, T2, T1; exact Es) ltac:(unfold NUC_NEED; lia)).
  lia.
Qed.

Lemma ys_not_cmevla k : simple_cmevla_check (ys (S k)) = false.
Proof.
  apply Bool.not_true_iff_false. intros H. apply cmevla_check_ends in H as (m & c & E & Hc).
  assert (X : In c (ys (S k))).
  { assert (Y : In c (letters (ys (S k)))) by (rewrite E; apply in_or_app; right; left; reflexivity). unfold letters in Y. apply filter_In in Y. apply Y. }
  apply repeat_spec in X. subst c. vm_compute in Hc. intuition discriminate.
Qed.

Lemma loop_head n s : fall_off_calls s <= fst (loop_calls (S n) s).
Proof. cbn [loop_calls]. destruct (fall_off s) as [[[? ?]|]| |]; try (cbn; lia). destruct (loop_calls n s1). cbn. lia. Qed.

Lemma chunk_calls_ys k s : txt s = ys (S k) -> 2 ^ N.of_nat (Nat.div2 (S k)) <= chunk_calls s.
Proof.
  intros Es. pose proof (cmavo_calls k s Es) as H. unfold chunk_calls. rewrite Es at 1. rewrite ys_not_cmevla.
  pose proof (loop_head (List.length (txt s)) s) as L. destruct (loop_calls (S (List.length (txt s))) s) as [c r]. cbn [fst] in L.
  assert (F : calls_of N_cmavo_minimal s <= fall_off_calls s) by (unfold fall_off_calls; destruct (call_rule N_cmavo_minimal s) as [[|]| |]; lia).
  lia.
Qed.

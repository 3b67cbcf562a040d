(** Props_Cost.v -- property C46: the number of rule invocations.
    [calls_of x t] is the number of rule functions that one call of the rule
    [x] on [t] enters, itself included; [chunk_calls t] the number that
    decomposing the chunk [t] enters (Cost.v). *)
From Verif Require Import Base Utf8 Span Peg PegMeta Rules RulesApi Decompose SpecText Cost CostThms.
From Coq Require Import Lia Arith.

(** What is counted is the model's own run: forgetting the counter gives it back. *)
Theorem C46_counts_the_run x s : fst (crun rule (rules_fuel (txt s)) (Call x) s) = run rule (rules_fuel (txt s)) (Call x) s.
Proof. apply crun_run. Qed.
Print Assumptions C46_counts_the_run.

(** [2n] letters y take at least [2^n] rule invocations. *)
Theorem C46_exponential n s : (0 < n)%nat -> txt s = repeat 121 (2 * n) -> 2 ^ N.of_nat n <= chunk_calls s.
Proof.
  intros Hn Es. destruct (2 * n)%nat as [|k] eqn:E; [lia|]. pose proof (chunk_calls_ys k s Es) as H.
  rewrite <- E, Nat.div2_double in H. exact H.
Qed.
Print Assumptions C46_exponential.

Example C46_example : calls_of N_nucleus (mkstr 0 (lit "yyyyyy")) = 133 /\
  calls_of N_nucleus (mkstr 0 (lit "yyyyyyyy")) = 277 /\ 2 ^ 4 <= 277.
Proof. vm_compute. repeat split; discriminate. Qed.

Lemma pow_gt t : N.of_nat t + 1 <= 2 ^ N.of_nat t.
Proof. induction t as [|t IH]; [cbn; lia|]. rewrite Nat2N.inj_succ, N.pow_succ_r'. lia. Qed.
Lemma pow_gt' c : c + 1 <= 2 ^ c.
Proof. rewrite <- (N2Nat.id c). apply pow_gt. Qed.

Lemma exp_beats c d : exists n, (0 < n)%nat /\ c * (2 * N.of_nat n) ^ d < 2 ^ N.of_nat n.
Proof.
  set (t := c + d + 1). set (j := 3 * t). exists (N.to_nat (2 ^ j)). split.
  { pose proof (pow_gt' j). lia. }
  rewrite N2Nat.id. rewrite <- N.pow_succ_r', <- N.pow_mul_r.
  assert (A : c < 2 ^ c) by (pose proof (pow_gt' c); lia).
  apply N.lt_le_trans with (2 ^ c * 2 ^ (N.succ j * d)).
  { apply N.mul_lt_mono_pos_r; [|exact A]. pose proof (pow_gt' (N.succ j * d)). lia. }
  rewrite <- N.pow_add_r. apply N.pow_le_mono_r; [lia|].
  assert (B : (t + 1) * ((t + 1) * (t + 1)) <= 2 ^ j).
  { unfold j. replace (3 * t) with (t + (t + t)) by lia. rewrite !N.pow_add_r. pose proof (pow_gt' t). repeat apply N.mul_le_mono; assumption. }
  assert (C : N.succ j * d <= (3 * t + 1) * t) by (apply N.mul_le_mono; unfold j, t; lia).
  assert (D : c <= t) by (unfold t; lia). nia.
Qed.

(** C46 is false of this code: no polynomial bounds the number of invocations. *)
Theorem C46_polynomial_refuted : ~ exists c d, forall s, no_sep (txt s) -> chunk_calls s <= c * s_len s ^ d.
Proof.
  intros (c & d & H). destruct (exp_beats c d) as (n & Hn & X).
  specialize (H (mkstr 0 (repeat 121 (2 * n)))).
  pose proof (C46_exponential n (mkstr 0 (repeat 121 (2 * n))) Hn eq_refl) as Y.
  assert (L : s_len (mkstr 0 (repeat 121 (2 * n))) = 2 * N.of_nat n).
  { change (blen (repeat 121 (2 * n)) = 2 * N.of_nat n). replace (2 * N.of_nat n) with (N.of_nat (2 * n)) by lia. generalize (2 * n)%nat. clear. induction n as [|n IH]; [reflexivity|].
    cbn [repeat]. rewrite PegMeta.blen_cons, IH. change (clen 121) with 1. lia. }
  rewrite L in H. assert (Z : no_sep (txt (mkstr 0 (repeat 121 (2 * n))))).
  { cbn [txt]. unfold no_sep. generalize (2 * n)%nat. intros q. apply Forall_forall. intros c0 Hc. apply repeat_spec in Hc. subst c0. intros X0. vm_compute in X0. intuition discriminate. }
  specialize (H Z). lia.
Qed.
Print Assumptions C46_polynomial_refuted.

(** RulesTotal.v -- the grammar of Rules.v is well founded: every rule, on
    every input, terminates without panicking.  The tables are computed; the
    kernel checks [grammar_ok].  [ev] is the resulting total semantics. *)
From Verif Require Import Base Peg Rules RulesApi PegMeta.
From Coq Require Import Lia Arith.

Definition nt_idx (x : nt) : nat :=
  match x with
  | N_h => 0 | N_b => 1 | N_c => 2 | N_d => 3 | N_f => 4 | N_g => 5 | N_j => 6 | N_k => 7 |
  N_l => 8 | N_m => 9 | N_n => 10 | N_p => 11 | N_r => 12 | N_s => 13 | N_t => 14 | N_v =>
  15 | N_x => 16 | N_z => 17 | N_liquid => 18 | N_syllabic => 19 | N_voiced => 20 |
  N_unvoiced => 21 | N_consonant => 22 | N_other => 23 | N_sibilant => 24 | N_affricate =>
  25 | N_a => 26 | N_e => 27 | N_i => 28 | N_o => 29 | N_u => 30 | N_y => 31 | N_vowel => 32
  | N_diphthong => 33 | N_nucleus => 34 | N_glide => 35 | N_digit => 36 | N_cmevla => 37 |
  N_cvcy_lujvo => 38 | N_cluster => 39 | N_initial => 40 | N_onset => 41 | N_stressed => 42
  | N_cmavo_form => 43 | N_post_word => 44 | N_initial_pair => 45 | N_consonantal_syllable
  => 46 | N_any_syllable => 47 | N_coda => 48 | N_syllable => 49 | N_stress => 50 |
  N_explicitly_stressed_vowel => 51 | N_stressed_vowel => 52 | N_final_syllable => 53 |
  N_gismu => 54 | N_cvc_rafsi => 55 | N_ccv_rafsi => 56 | N_unstressed_vowel => 57 |
  N_unstressed_diphthong => 58 | N_r_hyphen => 59 | N_cvv_rafsi => 60 | N_y_less_rafsi => 61
  | N_cvv_final_rafsi => 62 | N_stressed_cvc_rafsi => 63 | N_stressed_ccv_rafsi => 64 |
  N_stressed_diphthong => 65 | N_stressed_cvv_rafsi => 66 | N_stressed_y_less_rafsi => 67 |
  N_long_rafsi => 68 | N_hy_rafsi => 69 | N_stressed_hy_rafsi => 70 | N_y_rafsi => 71 |
  N_stressed_long_rafsi => 72 | N_stressed_y_rafsi => 73 | N_short_final_rafsi => 74 |
  N_rafsi_string => 75 | N_slinkuhi => 76 | N_unstressed_syllable => 77 | N_brivla_head =>
  78 | N_fuhivla_head => 79 | N_explicitly_stressed_syllable => 80 | N_stressed_syllable =>
  81 | N_fuhivla => 82 | N_brivla_rafsi => 83 | N_fuhivla_rafsi => 84 | N_extended_rafsi =>
  85 | N_stressed_brivla_rafsi => 86 | N_stressed_fuhivla_rafsi => 87 |
  N_stressed_extended_rafsi => 88 | N_any_extended_rafsi => 89 | N_initial_rafsi => 90 |
  N_stressed_initial_rafsi => 91 | N_brivla_core => 92 | N_explicitly_stressed_gismu_minimal
  => 93 | N_final_syllable_minimal => 94 | N_explicitly_stressed_fuhivla_minimal => 95 |
  N_explicitly_stressed_cvv_final_rafsi => 96 | N_explicitly_stressed_brivla_rafsi => 97 |
  N_explicitly_stressed_fuhivla_rafsi => 98 | N_explicitly_stressed_extended_rafsi => 99 |
  N_explicitly_stressed_long_rafsi => 100 | N_explicitly_stressed_cvc_rafsi => 101 |
  N_explicitly_stressed_y_rafsi => 102 | N_explicitly_stressed_ccv_rafsi => 103 |
  N_explicitly_stressed_diphthong => 104 | N_explicitly_stressed_cvv_rafsi => 105 |
  N_explicitly_stressed_y_less_rafsi => 106 | N_explicitly_stressed_initial_rafsi => 107 |
  N_explicitly_stressed_brivla_core => 108 | N_explicitly_stressed_brivla_minimal => 109 |
  N_lujvo => 110 | N_lujvo_minimal => 111 | N_brivla => 112 | N_brivla_minimal => 113 |
  N_lojban_word => 114 | N_cmavo => 115 | N_cmavo_minimal => 116 | N_cmavo_semi_minimal =>
  117
  end%nat.

Definition look {A} (d : A) (l : list A) (x : nt) : A := nth (nt_idx x) l d.

Fixpoint iter {A} (k : nat) (f : A -> A) (a : A) : A :=
  match k with O => a | S k => iter k f (f a) end.

Definition nn_step (tbl : list bool) : list bool :=
  map (fun x => nonnull (look true tbl) (rule x)) all_nt.
Definition nn_table : list bool :=
  Eval vm_compute in iter 40 nn_step (map (fun _ => true) all_nt).
Definition nn : nt -> bool := look true nn_table.

Definition nd_step (tbl : list nat) : list nat :=
  map (fun x => need nn (look 0%nat tbl) (rule x)) all_nt.
Definition nd_table : list nat :=
  Eval vm_compute in iter 200 nd_step (map (fun _ => 0%nat) all_nt).
Definition nd : nt -> nat := look 0%nat nd_table.

Lemma rules_ok : grammar_ok rule nn nd RULES_D.
Proof.
  intros x. destruct x; (split; [intros H; first [exact H | vm_compute; reflexivity] | split; [apply Nat.leb_le; vm_compute; reflexivity | vm_compute; reflexivity]]).
Qed.

(** * Total semantics *)

Definition wfe (e : pexp nt) : bool := wf nn nd RULES_D e.

Definition to_opt (p : pr) : option (list char) :=
  match p with POk r => Some r | _ => None end.

Definition ev (e : pexp nt) (t : list char) : option (list char) :=
  to_opt (prun rule (rules_fuel t) e t).

Lemma wfe_call x : wfe (Call x) = true.
Proof. destruct x; vm_compute; reflexivity. Qed.

Lemma wfe_rule x : wfe (rule x) = true.
Proof. apply (rules_ok x). Qed.

Lemma prun_enough n e t : wfe e = true -> (rules_fuel t <= n)%nat -> prun rule n e t <> POut.
Proof.
  intros Hwf Hn. apply (prun_total rule nn nd RULES_D rules_ok); [exact Hwf|].
  pose proof (wf_need nn nd RULES_D e Hwf). unfold rules_fuel in Hn.
  rewrite Nat.mul_succ_r in Hn. lia.
Qed.

Lemma ev_any n e t : wfe e = true -> prun rule n e t <> POut -> to_opt (prun rule n e t) = ev e t.
Proof.
  intros Hwf Hn. unfold ev. f_equal.
  pose proof (prun_enough (rules_fuel t) e t Hwf (Nat.le_refl _)) as H0.
  destruct (Nat.le_ge_cases n (rules_fuel t)) as [Hle|Hle].
  - symmetry. apply prun_mono; assumption.
  - apply prun_mono; assumption.
Qed.

Lemma ev_big n e t : wfe e = true -> (rules_fuel t <= n)%nat ->
  prun rule n e t = match ev e t with Some r => POk r | None => PFail end.
Proof.
  intros Hwf Hn. pose proof (prun_enough n e t Hwf Hn) as H.
  rewrite <- (ev_any n e t Hwf H). destruct (prun rule n e t); [congruence|reflexivity|reflexivity].
Qed.

Lemma rules_fuel_mono t u : (List.length u <= List.length t)%nat -> (rules_fuel u <= rules_fuel t)%nat.
Proof. intros H. unfold rules_fuel. apply Nat.mul_le_mono_l. lia. Qed.

Lemma ev_suffix e t r : ev e t = Some r -> exists m, t = m ++ r.
Proof.
  unfold ev. destruct (prun rule (rules_fuel t) e t) eqn:E; try discriminate.
  intros [= <-]. eapply prun_suffix; eassumption.
Qed.

Lemma ev_length e t r : ev e t = Some r -> (List.length r <= List.length t)%nat.
Proof. intros H. apply ev_suffix in H as (m & ->). rewrite app_length. lia. Qed.

Lemma ev_nonnull e t r : nonnull nn e = true -> ev e t = Some r -> (List.length r < List.length t)%nat.
Proof.
  unfold ev. destruct (prun rule (rules_fuel t) e t) eqn:E; try discriminate.
  intros Hn [= <-]. eapply (nonnull_sound rule nn nd RULES_D rules_ok); eassumption.
Qed.

(** Equations.  [evs] runs a list of expressions one after the other. *)
Fixpoint evs (es : list (pexp nt)) (t : list char) : option (list char) :=
  match es with
  | [] => Some t
  | e :: es' => match ev e t with Some r => evs es' r | None => None end
  end.

Fixpoint evor (es : list (pexp nt)) (t : list char) : option (list char) :=
  match es with
  | [] => None
  | e :: es' => match ev e t with Some r => Some r | None => evor es' t end
  end.

Fixpoint evlong (es : list (pexp nt)) (t : list char) (best : option (list char)) : option (list char) :=
  match es with
  | [] => best
  | e :: es' =>
      match ev e t with
      | Some r => match best with
                  | None => evlong es' t (Some r)
                  | Some r0 => if blen r <? blen r0 then evlong es' t (Some r) else evlong es' t best
                  end
      | None => evlong es' t best
      end
  end.

Section Eqs.
Context (t : list char).
Let n := rules_fuel t.

Lemma ev_step e : wfe e = true -> ev e t = to_opt (prun rule (S n) e t).
Proof.
  intros Hwf. symmetry. apply ev_any; [exact Hwf|]. apply prun_enough; [exact Hwf|unfold n; lia].
Qed.

Lemma big e : wfe e = true -> prun rule n e t = match ev e t with Some r => POk r | None => PFail end.
Proof. intros H. apply ev_big; [exact H|unfold n; lia]. Qed.

Lemma big_le e u : wfe e = true -> (List.length u <= List.length t)%nat ->
  prun rule n e u = match ev e u with Some r => POk r | None => PFail end.
Proof. intros H Hl. apply ev_big; [exact H|apply rules_fuel_mono; exact Hl]. Qed.

Lemma ev_One chs : ev (One chs) t =
  match next_char t with
  | Some (c, r) => if mem_char c chs then Some r else None
  | None => None
  end.
Proof.
  rewrite ev_step by reflexivity. cbn [prun].
  destruct (next_char t) as [[c r]|]; [destruct (mem_char c chs)|]; reflexivity.
Qed.

Lemma ev_Eof : ev Eof t = match t with [] => Some [] | _ => None end.
Proof. rewrite ev_step by reflexivity. cbn [prun]. destruct t; reflexivity. Qed.

Lemma ev_Null : ev Null t = Some t.
Proof. rewrite ev_step by reflexivity. reflexivity. Qed.

Lemma wfe_inv e : wfe e = true ->
  match e with
  | One _ | Eof | Null | Call _ => True
  | Not a | Peek a => wfe a = true
  | Or es | Longest es => forallb wfe es = true
  | Seq a es => wfe a = true /\ forallb wfe es = true
  | Repeat _ a => nonnull nn a = true /\ wfe a = true
  | AndPeek a p | AndNot a p | NotThen a p => wfe a = true /\ wfe p = true
  end.
Proof.
  unfold wfe. destruct e; cbn [wf]; intros H; apply andb_true_iff in H as [_ H]; try exact I; try exact H;
    apply andb_true_iff in H as [H1 H2]; split; assumption.
Qed.

Lemma ev_Call x : ev (Call x) t = ev (rule x) t.
Proof.
  rewrite ev_step by apply wfe_call. cbn [prun]. rewrite big by apply wfe_rule.
  destruct (ev (rule x) t); reflexivity.
Qed.

Lemma ev_Not e : wfe (Not e) = true ->
  ev (Not e) t = match ev e t with Some _ => None | None => Some t end.
Proof.
  intros H. rewrite ev_step by exact H. cbn [prun]. apply wfe_inv in H.
  rewrite big by exact H. destruct (ev e t); reflexivity.
Qed.

Lemma ev_Peek e : wfe (Peek e) = true ->
  ev (Peek e) t = match ev e t with Some _ => Some t | None => None end.
Proof.
  intros H. rewrite ev_step by exact H. cbn [prun]. apply wfe_inv in H.
  rewrite big by exact H. destruct (ev e t); reflexivity.
Qed.

Lemma ev_Or es : wfe (Or es) = true -> ev (Or es) t = evor es t.
Proof.
  intros H. rewrite ev_step by exact H. cbn [prun]. apply wfe_inv in H.
  induction es as [|e es IH]; cbn [por evor]; [reflexivity|].
  cbn [forallb] in H. apply andb_true_iff in H as [He Hes]. rewrite big by exact He.
  destruct (ev e t); [reflexivity|auto].
Qed.

Lemma ev_Longest es : wfe (Longest es) = true -> ev (Longest es) t = evlong es t None.
Proof.
  intros H. rewrite ev_step by exact H. cbn [prun]. apply wfe_inv in H.
  generalize (@None (list char)).
  induction es as [|e es IH]; intros b; cbn [plongest evlong]; [destruct b; reflexivity|].
  cbn [forallb] in H. apply andb_true_iff in H as [He Hes]. rewrite big by exact He.
  destruct (ev e t); [destruct b as [r0|]; [destruct (_ <? _)|]|]; apply IH; exact Hes.
Qed.

Lemma ev_Seq e es : wfe (Seq e es) = true ->
  ev (Seq e es) t = match ev e t with Some r => evs es r | None => None end.
Proof.
  intros H. rewrite ev_step by exact H. cbn [prun]. apply wfe_inv in H as [He Hes].
  rewrite big by exact He. destruct (ev e t) as [r|] eqn:E; [|reflexivity].
  apply ev_length in E. clear He. revert r E.
  induction es as [|a es IH]; intros r Hr; cbn [pseq evs]; [reflexivity|].
  cbn [forallb] in Hes. apply andb_true_iff in Hes as [Ha Hes].
  rewrite big_le by assumption. destruct (ev a r) as [r'|] eqn:E; [|reflexivity].
  apply IH; [exact Hes|]. apply ev_length in E. lia.
Qed.

Lemma ev_AndPeek e p : wfe (AndPeek e p) = true ->
  ev (AndPeek e p) t = match ev e t with
                       | Some r => match ev p r with Some _ => Some r | None => None end
                       | None => None
                       end.
Proof.
  intros H. rewrite ev_step by exact H. cbn [prun]. apply wfe_inv in H as [He Hp].
  rewrite big by exact He. destruct (ev e t) as [r|] eqn:E; [|reflexivity].
  apply ev_length in E. rewrite big_le by assumption. destruct (ev p r); reflexivity.
Qed.

Lemma ev_AndNot e p : wfe (AndNot e p) = true ->
  ev (AndNot e p) t = match ev e t with
                      | Some r => match ev p r with Some _ => None | None => Some r end
                      | None => None
                      end.
Proof.
  intros H. rewrite ev_step by exact H. cbn [prun]. apply wfe_inv in H as [He Hp].
  rewrite big by exact He. destruct (ev e t) as [r|] eqn:E; [|reflexivity].
  apply ev_length in E. rewrite big_le by assumption. destruct (ev p r); reflexivity.
Qed.

Lemma ev_NotThen p e : wfe (NotThen p e) = true ->
  ev (NotThen p e) t = match ev p t with Some _ => None | None => ev e t end.
Proof.
  intros H. rewrite ev_step by exact H. cbn [prun]. apply wfe_inv in H as [Hp He].
  rewrite !big by assumption. destruct (ev p t); [reflexivity|]. destruct (ev e t); reflexivity.
Qed.
End Eqs.

Lemma prep_more f k1 : forall k2 min t num, (k1 <= k2)%nat -> prep f k1 min t num <> POut ->
  prep f k2 min t num = prep f k1 min t num.
Proof.
  induction k1 as [|k1 IH]; intros k2 min t num Hle H; [cbn in H; congruence|].
  destruct k2 as [|k2]; [lia|]. cbn [prep] in *. destruct (f t); [reflexivity|reflexivity|].
  apply IH; [lia|exact H].
Qed.

Lemma prep_num f k : forall min t num,
  prep f k (S min) t (S num) = prep f k min t num.
Proof.
  induction k as [|k IH]; intros min t num; cbn [prep]; [reflexivity|].
  destruct (f t); [reflexivity| |apply IH]. reflexivity.
Qed.

Lemma prep_0_num f k : forall t num num', prep f k 0 t num = prep f k 0 t num'.
Proof.
  induction k as [|k IH]; intros t num num'; cbn [prep]; [reflexivity|].
  destruct (f t); [reflexivity| |apply IH]. reflexivity.
Qed.

Lemma ev_Repeat m e t : wfe (Repeat m e) = true ->
  ev (Repeat m e) t =
  match ev e t with
  | Some r => ev (Repeat (Nat.pred m) e) r
  | None => match m with O => Some t | S _ => None end
  end.
Proof.
  intros H. pose proof H as Hwf. rewrite ev_step by exact H. cbn [prun].
  apply wfe_inv in H as [Hnn He].
  set (n := rules_fuel t). cbn [prep]. rewrite ev_big by (assumption || (unfold n; lia)).
  destruct (ev e t) as [r|] eqn:E.
  - pose proof (ev_nonnull _ _ _ Hnn E) as Hr.
    assert (Hwf' : wfe (Repeat (Nat.pred m) e) = true) by exact Hwf.
    assert (Hbig : prun rule (S n) (Repeat (Nat.pred m) e) r <> POut).
    { apply prun_enough; [exact Hwf'|]. pose proof (rules_fuel_mono t r). unfold n. lia. }
    rewrite <- (ev_any _ _ _ Hwf' Hbig). cbn [prun] in *. f_equal.
    destruct m as [|m]; cbn [Nat.pred] in *.
    + rewrite (prep_0_num _ _ _ 1%nat 0%nat). apply prep_more; [lia|exact Hbig].
    + rewrite prep_num. apply prep_more; [lia|exact Hbig].
  - destruct m; reflexivity.
Qed.

(** * Calling a rule from Rust *)

Lemma call_rule_spec x s :
  match ev (Call x) (txt s) with
  | None => call_rule x s = Ret None
  | Some r => exists m, txt s = m ++ r /\
                call_rule x s = Ret (Some (mkstr (ptr s) m, mkstr (ptr s + blen m) r))
  end.
Proof.
  unfold call_rule. pose proof (run_prun rule (rules_fuel (txt s)) (Call x) s) as H.
  rewrite ev_big in H by (apply wfe_call || lia).
  destruct (ev (Call x) (txt s)) as [r|]; cbn [agrees] in H.
  - destruct H as (m & Hs & ->). exists m. split; [exact Hs|reflexivity].
  - rewrite H. reflexivity.
Qed.

Definition accepts (x : nt) (t : list char) : bool := is_some (ev (Call x) t).
Definition accepts_all (x : nt) (t : list char) : bool :=
  match ev (Call x) t with Some [] => true | _ => false end.

Lemma call_rule_is_some x s : exists o, call_rule x s = Ret o /\ is_some o = accepts x (txt s)
  /\ succeeded_and_consumed_all o = accepts_all x (txt s).
Proof.
  pose proof (call_rule_spec x s) as H. unfold accepts, accepts_all.
  destruct (ev (Call x) (txt s)) as [r|].
  - destruct H as (m & _ & ->). eexists; split; [reflexivity|]. split; [reflexivity|].
    destruct r; reflexivity.
  - exists None. repeat split; exact H.
Qed.

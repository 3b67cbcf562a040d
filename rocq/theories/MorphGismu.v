(** MorphGismu.v -- the texts matched by the rule gismu are exactly the gismu
    forms of SpecMorph.v; and how names and brivla end. *)
From Verif Require Import Base Peg Rules RulesApi PegMeta RulesTotal PegChars PegSim SymPeg SpecText SpecMorph MorphFacts MorphCons MorphCmavo.
From Coq Require Import Lia Arith.

Definition P1 : pat := [CONS; VOWELS; CONS; CONS; VOWELS].
Definition P2 : pat := [CONS; CONS; VOWELS; CONS; VOWELS].

Definition full (L : nat) (r : sres) : bool := match r with SOk k => Nat.eqb k L | _ => false end.

(** [good1 q b]: every text of [q] is a CVCCV gismu form, if [b]; or none is, if not [b]. *)
Definition good1 (q : pat) (b : bool) : bool :=
  match q with
  | [_; _; k3; k4; k5] =>
      if b then forallb (fun x => forallb (fun y => perm_b x y) k4) k3 && forallb (fun v => memb v (lit "aeiou")) k5
      else forallb (fun x => forallb (fun y => negb (perm_b x y)) k4) k3 || forallb (fun v => negb (memb v (lit "aeiou"))) k5
  | _ => false
  end.
Definition good2 (q : pat) (b : bool) : bool :=
  match q with
  | [k1; k2; _; _; k5] =>
      if b then forallb (fun x => forallb (fun y => initial_b x y) k2) k1 && forallb (fun v => memb v (lit "aeiou")) k5
      else forallb (fun x => forallb (fun y => negb (initial_b x y)) k2) k1 || forallb (fun v => negb (memb v (lit "aeiou"))) k5
  | _ => false
  end.

Definition branches_ok (good : pat -> bool -> bool) (o : option (list branch)) : bool :=
  match o with Some bs => forallb (fun b => match snd b with STail => false | _ => good (fst b) (full 5 (snd b)) end) bs | None => false end.

Lemma gismu_check1 : branches_ok good1 (sx None 60 (Call N_gismu) P1) = true.
Proof. vm_compute. reflexivity. Qed.
Lemma gismu_check2 : branches_ok good2 (sx None 60 (Call N_gismu) P2) = true.
Proof. vm_compute. reflexivity. Qed.

Lemma branches_use good x p u : List.length p = 5%nat -> branches_ok good (sx None 60 (Call x) p) = true -> has p u ->
  exists q, has q u /\ good q (accepts_all x u) = true.
Proof.
  intros Hl H Hu. destruct (sx None 60 (Call x) p) as [bs|] eqn:E; [|discriminate]. cbn [branches_ok] in H.
  destruct (sx_sound None 60 (Call x) p u bs (wfe_call x) (inst_has_nil _ _ Hu) E) as (b & Hin & Hlb & Hib & Hr).
  rewrite forallb_forall in H. specialize (H b Hin). cbv beta in H. exists (fst b).
  destruct Hib as (u' & T & Et & F & HT). cbn in HT. subst T. rewrite app_nil_r in Et. subst u'.
  split; [exact F|]. pose proof (has_len _ _ Hu) as Lu. rewrite Hl in Lu.
  destruct (snd b) as [|k|] eqn:Eb; cbn [result full] in *; [| |discriminate]; rewrite <- H; f_equal; unfold accepts_all.
  - rewrite Hr. reflexivity.
  - destruct Hr as [-> Hk]. destruct (skipn k u) as [|c r] eqn:Es.
    + symmetry. apply Nat.eqb_eq. assert (L : List.length (skipn k u) = 0%nat) by (rewrite Es; reflexivity).
      rewrite skipn_length in L. lia.
    + symmetry. apply Nat.eqb_neq. intros ->. rewrite skipn_all2 in Es by lia. discriminate.
Qed.

Lemma has5 a b c d e u : has [a; b; c; d; e] u -> exists x1 x2 x3 x4 x5, u = [x1; x2; x3; x4; x5] /\
  In x1 a /\ In x2 b /\ In x3 c /\ In x4 d /\ In x5 e.
Proof.
  intros H. inversion H as [|? x1 ? u1 [H1 _] F1]; subst. inversion F1 as [|? x2 ? u2 [H2 _] F2]; subst.
  inversion F2 as [|? x3 ? u3 [H3 _] F3]; subst. inversion F3 as [|? x4 ? u4 [H4 _] F4]; subst.
  inversion F4 as [|? x5 ? u5 [H5 _] F5]; subst. inversion F5; subst. exists x1, x2, x3, x4, x5. auto 10.
Qed.

Lemma forallb2_in (f : char -> char -> bool) k l x y : forallb (fun x => forallb (fun y => f x y) l) k = true -> In x k -> In y l -> f x y = true.
Proof.
  intros H Hx Hy. rewrite forallb_forall in H. specialize (H x Hx). cbv beta in H. rewrite forallb_forall in H. exact (H y Hy).
Qed.

Lemma lowercase_b v : memb v (lit "aeiou") = true <-> lowercase_vowel v.
Proof. apply memb_In. Qed.

Lemma lowercase_VOWELS v : lowercase_vowel v -> In v VOWELS.
Proof.
  intros H. apply memb_In. apply (char_sweep (lit "aeiou") (fun c => memb c VOWELS)); [reflexivity|exact H].
Qed.

Lemma gismu1 c1 v1 c2 c3 v2 : In c1 CONS -> In v1 VOWELS -> In c2 CONS -> In c3 CONS -> In v2 VOWELS ->
  accepts_all N_gismu [c1; v1; c2; c3; v2] = perm_b c2 c3 && memb v2 (lit "aeiou").
Proof.
  intros H1 H2 H3 H4 H5.
  assert (Hh : has P1 [c1; v1; c2; c3; v2]).
  { repeat (constructor; [split; [assumption|eapply in_plain; [|eassumption]; reflexivity]|]). constructor. }
  destruct (branches_use good1 N_gismu P1 _ eq_refl gismu_check1 Hh) as (q & Hq & Hg).
  revert Hg. generalize (accepts_all N_gismu [c1; v1; c2; c3; v2]). intros b Hg.
  destruct q as [|k1 [|k2 [|k3 [|k4 [|k5 [|k6 q]]]]]]; try discriminate Hg.
  destruct (has5 _ _ _ _ _ _ Hq) as (x1 & x2 & x3 & x4 & x5 & E & _ & _ & K3 & K4 & K5). injection E as <- <- <- <- <-.
  cbn [good1] in Hg. destruct b.
  - apply andb_true_iff in Hg as [Ha Hb]. rewrite (forallb2_in _ _ _ _ _ Ha K3 K4). symmetry. exact (forallb_in _ _ _ Hb K5).
  - symmetry. apply orb_true_iff in Hg as [Ha|Hb].
    + pose proof (forallb2_in (fun x y => negb (perm_b x y)) _ _ _ _ Ha K3 K4) as N. apply negb_true_iff in N. rewrite N. reflexivity.
    + pose proof (forallb_in _ _ _ Hb K5) as N. cbv beta in N. apply negb_true_iff in N. rewrite N. apply andb_false_r.
Qed.

Lemma gismu2 c1 c2 v1 c3 v2 : In c1 CONS -> In c2 CONS -> In v1 VOWELS -> In c3 CONS -> In v2 VOWELS ->
  accepts_all N_gismu [c1; c2; v1; c3; v2] = initial_b c1 c2 && memb v2 (lit "aeiou").
Proof.
  intros H1 H2 H3 H4 H5.
  assert (Hh : has P2 [c1; c2; v1; c3; v2]).
  { repeat (constructor; [split; [assumption|eapply in_plain; [|eassumption]; reflexivity]|]). constructor. }
  destruct (branches_use good2 N_gismu P2 _ eq_refl gismu_check2 Hh) as (q & Hq & Hg).
  revert Hg. generalize (accepts_all N_gismu [c1; c2; v1; c3; v2]). intros b Hg.
  destruct q as [|k1 [|k2 [|k3 [|k4 [|k5 [|k6 q]]]]]]; try discriminate Hg.
  destruct (has5 _ _ _ _ _ _ Hq) as (x1 & x2 & x3 & x4 & x5 & E & K1 & K2 & _ & _ & K5). injection E as <- <- <- <- <-.
  cbn [good2] in Hg. destruct b.
  - apply andb_true_iff in Hg as [Ha Hb]. rewrite (forallb2_in _ _ _ _ _ Ha K1 K2). symmetry. exact (forallb_in _ _ _ Hb K5).
  - symmetry. apply orb_true_iff in Hg as [Ha|Hb].
    + pose proof (forallb2_in (fun x y => negb (initial_b x y)) _ _ _ _ Ha K1 K2) as N. apply negb_true_iff in N. rewrite N. reflexivity.
    + pose proof (forallb_in _ _ _ Hb K5) as N. cbv beta in N. apply negb_true_iff in N. rewrite N. apply andb_false_r.
Qed.

Lemma initial_cons c1 c2 : initial_pair c1 c2 -> In c1 CONS /\ In c2 CONS.
Proof.
  intros H. assert (K : forallb (fun p => match p with [x; y] => memb x (lit "bcdfgjklmnprstvxz") && memb y (lit "bcdfgjklmnprstvxz") | _ => false end) INITIAL_PAIRS = true)
    by (vm_compute; reflexivity).
  pose proof (forallb_in _ _ _ K H) as M. cbv beta iota in M. apply andb_true_iff in M as [M1 M2].
  split; apply consonant_CONS; apply memb_In; assumption.
Qed.

Theorem gismu_exact u : plain u -> accepts_all N_gismu u = true <-> gismu_form vowel_or_y lowercase_vowel u.
Proof.
  intros Hu. split.
  - intros H. pose proof H as H0. unfold accepts_all in H0. destruct (ev (Call N_gismu) u) as [[|c r]|] eqn:E; try discriminate.
    destruct (shape_plain 20 (Call N_gismu) [P1; P2] u []) as (m & q & Em & Hq & Hm); auto.
    rewrite app_nil_r in Em. subst m. destruct Hq as [<-|[<-|[]]].
    + destruct (has5 _ _ _ _ _ _ Hm) as (x1 & x2 & x3 & x4 & x5 & -> & K1 & K2 & K3 & K4 & K5).
      rewrite gismu1 in H by assumption. apply andb_true_iff in H as [Ha Hb]. left. exists x1, x2, x3, x4, x5.
      split; [reflexivity|]. split; [apply consonant_CONS, K1|]. split; [apply vowel_or_y_VOWELS, K2|].
      split; [apply perm_b_spec, Ha|apply lowercase_b, Hb].
    + destruct (has5 _ _ _ _ _ _ Hm) as (x1 & x2 & x3 & x4 & x5 & -> & K1 & K2 & K3 & K4 & K5).
      rewrite gismu2 in H by assumption. apply andb_true_iff in H as [Ha Hb]. right. exists x1, x2, x3, x4, x5.
      split; [reflexivity|]. split; [apply initial_b_spec, Ha|]. split; [apply vowel_or_y_VOWELS, K3|].
      split; [apply consonant_CONS, K4|apply lowercase_b, Hb].
  - intros [(c1 & v1 & c2 & c3 & v2 & -> & H1 & H2 & H3 & H4)|(c1 & c2 & v1 & c3 & v2 & -> & H1 & H2 & H3 & H4)].
    + rewrite gismu1.
      * apply perm_b_spec in H3. apply lowercase_b in H4. rewrite H3, H4. reflexivity.
      * apply consonant_CONS, H1.
      * apply vowel_or_y_VOWELS, H2.
      * apply consonant_CONS, H3.
      * destruct H3 as (_ & H3 & _). apply consonant_CONS, H3.
      * apply lowercase_VOWELS, H4.
    + rewrite gismu2.
      * apply initial_b_spec in H1. apply lowercase_b in H4. rewrite H1, H4. reflexivity.
      * apply (initial_cons _ _ H1).
      * apply (initial_cons _ _ H1).
      * apply vowel_or_y_VOWELS, H2.
      * apply consonant_CONS, H3.
      * apply lowercase_VOWELS, H4.
Qed.

(** * Endings *)

Lemma ends_with_app P a u : ends_with P u -> ends_with P (a ++ u).
Proof. intros (m & c & -> & H). exists (a ++ m), c. rewrite app_assoc. auto. Qed.

Lemma ends_suffix P e t r : ev e t = Some r -> ends_with P r -> ends_with P t.
Proof. intros H Hr. apply ev_suffix in H as (m & ->). apply ends_with_app, Hr. Qed.

Lemma plain_suffix e t r : plain t -> ev e t = Some r -> plain r.
Proof. intros Ht H. apply ev_suffix in H as (m & ->). apply plain_app in Ht. tauto. Qed.

Lemma cmevla_ends u : plain u -> accepts_all N_cmevla u = true -> ends_with consonant_letter u.
Proof.
  intros Hu. unfold accepts_all. destruct (ev (Call N_cmevla) u) as [[|c r]|] eqn:E; try discriminate. intros _.
  rewrite ev_Call in E.
  change (rule N_cmevla) with (NotThen (Call N_h) (Seq (Repeat 0 (Or [Call N_nucleus; Call N_glide; Call N_h; AndNot (Call N_consonant) Eof; Call N_digit]))
    [Call N_consonant; Eof])) in E.
  rewrite ev_NotThen in E by reflexivity. destruct (ev (Call N_h) u); [discriminate|].
  rewrite ev_Seq in E by reflexivity. destruct (ev (Repeat 0 _) u) as [r1|] eqn:E1; [|discriminate]. cbn [evs] in E.
  destruct (ev (Call N_consonant) r1) as [r2|] eqn:E2; [|discriminate]. rewrite ev_Eof in E. destruct r2; [|discriminate].
  pose proof (plain_suffix _ _ _ Hu E1) as H1. eapply ends_suffix; [exact E1|].
  destruct (shape_plain 12 (Call N_consonant) [[CONS]] r1 []) as (m & q & -> & [<-|[]] & Hm); auto.
  inversion Hm as [|? c ? m' [Hc _] Hm']; subst. inversion Hm'; subst. exists [], c. split; [reflexivity|apply consonant_CONS, Hc].
Qed.

Lemma vowel_letter_b c : memb (lower c) (lit "aeiou") = true -> vowel_letter c.
Proof. apply memb_In. Qed.

Lemma final_syllable_ends t r : plain t -> ev (Call N_final_syllable) t = Some r ->
  exists m c, t = m ++ c :: r /\ vowel_letter c.
Proof.
  intros Ht E. rewrite ev_Call in E.
  change (rule N_final_syllable) with (Seq (Call N_onset) [Not (Call N_y); Not (Call N_stressed); Call N_nucleus; Not (Call N_cmevla); Peek (Call N_post_word)]) in E.
  rewrite ev_Seq in E by reflexivity. destruct (ev (Call N_onset) t) as [r1|] eqn:E1; [|discriminate]. cbn [evs] in E.
  pose proof (plain_suffix _ _ _ Ht E1) as H1.
  rewrite ev_Not in E by reflexivity. destruct (ev (Call N_y) r1) eqn:Ey; [discriminate|].
  rewrite ev_Not in E by reflexivity. destruct (ev (Call N_stressed) r1); [discriminate|].
  destruct (ev (Call N_nucleus) r1) as [r2|] eqn:E2; [|discriminate].
  assert (Er : r2 = r).
  { rewrite ev_Not in E by reflexivity. destruct (ev (Call N_cmevla) r2); [discriminate|].
    rewrite ev_Peek in E by reflexivity. destruct (ev (Call N_post_word) r2); [|discriminate]. congruence. }
  subst r2. apply ev_suffix in E1 as (a & ->).
  destruct (shape_plain 12 (Call N_nucleus) NUC r1 r) as (m & q & -> & Hq & Hm); auto.
  cbn [NUC DIPH In] in Hq. destruct Hq as [<-|[<-|[<-|[]]]].
  - inversion Hm as [|? v ? m' [Hv Hvc] Hm']; subst. inversion Hm'; subst. exists a, v. split; [reflexivity|].
    assert (Ny : mem_char v (lit "yY") = false).
    { rewrite ev_Call in Ey. change (rule N_y) with (@One nt (lit "yY")) in Ey. rewrite ev_One in Ey. cbn [app next_char] in Ey.
      rewrite Hvc in Ey. destruct (mem_char v (lit "yY")); [discriminate|reflexivity]. }
    apply vowel_letter_b. pose proof (char_sweep VOWELS (fun c => mem_char c (lit "yY") || memb (lower c) (lit "aeiou")) v eq_refl Hv) as K.
    cbv beta in K. rewrite Ny in K. exact K.
  - inversion Hm as [|? v ? m1 _ Hm1]; subst. inversion Hm1 as [|? w ? m2 [Hw _] Hm2]; subst. inversion Hm2; subst.
    exists (a ++ [v]), w. split; [rewrite <- app_assoc; reflexivity|]. apply vowel_letter_b.
    exact (char_sweep (lit "iIuU") (fun c => memb (lower c) (lit "aeiou")) w eq_refl Hw).
  - inversion Hm as [|? v ? m1 _ Hm1]; subst. inversion Hm1 as [|? w ? m2 [Hw _] Hm2]; subst. inversion Hm2; subst.
    exists (a ++ [v]), w. split; [rewrite <- app_assoc; reflexivity|]. apply vowel_letter_b.
    exact (char_sweep (lit "iI") (fun c => memb (lower c) (lit "aeiou")) w eq_refl Hw).
Qed.

Lemma fuhivla_ends u : plain u -> ev (Call N_fuhivla) u = Some [] -> ends_with vowel_letter u.
Proof.
  intros Hu E. rewrite ev_Call in E.
  change (rule N_fuhivla) with (Seq (Call N_fuhivla_head) [Call N_stressed_syllable; Repeat 0 (Call N_consonantal_syllable); Call N_final_syllable]) in E.
  rewrite ev_Seq in E by reflexivity. destruct (ev (Call N_fuhivla_head) u) as [r1|] eqn:E1; [|discriminate]. cbn [evs] in E.
  destruct (ev (Call N_stressed_syllable) r1) as [r2|] eqn:E2; [|discriminate].
  destruct (ev (Repeat 0 _) r2) as [r3|] eqn:E3; [|discriminate].
  destruct (ev (Call N_final_syllable) r3) as [r4|] eqn:E4; [|discriminate]. injection E as ->.
  assert (H3 : plain r3) by eauto using plain_suffix.
  destruct (final_syllable_ends r3 [] H3 E4) as (m & c & -> & Hc).
  eapply ends_suffix; [exact E1|]. eapply ends_suffix; [exact E2|]. eapply ends_suffix; [exact E3|]. exists m, c. auto.
Qed.

Lemma gismu_ends u : plain u -> accepts_all N_gismu u = true -> ends_with vowel_letter u.
Proof.
  intros Hu H. apply gismu_exact in H; [|exact Hu].
  assert (L : forall v, lowercase_vowel v -> vowel_letter v).
  { intros v Hv. apply vowel_letter_b. exact (char_sweep (lit "aeiou") (fun c => memb (lower c) (lit "aeiou")) v eq_refl Hv). }
  destruct H as [(c1 & v1 & c2 & c3 & v2 & -> & _ & _ & _ & H4)|(c1 & c2 & v1 & c3 & v2 & -> & _ & _ & _ & H4)].
  - exists [c1; v1; c2; c3], v2. auto.
  - exists [c1; c2; v1; c3], v2. auto.
Qed.

Definition NOT_FINAL : list char := lit "yYAEIOU".
Lemma vowels_split v : In v VOWELS -> In v NOT_FINAL \/ vowel_letter v.
Proof.
  intros H. pose proof (char_sweep VOWELS (fun c => memb c NOT_FINAL || memb (lower c) (lit "aeiou")) v eq_refl H) as K. cbv beta in K.
  apply orb_true_iff in K as [K|K]; [left; apply memb_In, K|right; apply vowel_letter_b, K].
Qed.

Lemma final_not1 : all_fail (sx None 60 (Call N_final_syllable) [NOT_FINAL]) = true.
Proof. vm_compute. reflexivity. Qed.
Lemma final_not3 : all_fail (sx None 60 (Call N_final_syllable) [CONS; CONS; NOT_FINAL]) = true.
Proof. vm_compute. reflexivity. Qed.

Lemma cvv_final_ends u : plain u -> ev (Call N_cvv_final_rafsi) u = Some [] -> ends_with vowel_letter u.
Proof.
  intros Hu E. rewrite ev_Call in E.
  change (rule N_cvv_final_rafsi) with (Seq (Call N_consonant) [Call N_stressed_vowel; Call N_h; Peek (Call N_final_syllable); Call N_vowel; Peek (Call N_post_word)]) in E.
  rewrite ev_Seq in E by reflexivity. destruct (ev (Call N_consonant) u) as [r1|] eqn:E1; [|discriminate]. cbn [evs] in E.
  destruct (ev (Call N_stressed_vowel) r1) as [r2|] eqn:E2; [|discriminate].
  destruct (ev (Call N_h) r2) as [r3|] eqn:E3; [|discriminate].
  rewrite ev_Peek in E by reflexivity. destruct (ev (Call N_final_syllable) r3) as [z|] eqn:Ef; [|discriminate].
  destruct (ev (Call N_vowel) r3) as [r4|] eqn:E4; [|discriminate].
  rewrite ev_Peek in E by reflexivity. destruct (ev (Call N_post_word) r4); [|discriminate]. injection E as ->.
  assert (H3 : plain r3) by eauto using plain_suffix.
  destruct (shape_plain 12 (Call N_vowel) [[VOWELS]] r3 []) as (m & q & -> & [<-|[]] & Hm); auto.
  inversion Hm as [|? v ? m' [Hv Hvc] Hm']; subst. inversion Hm'; subst. cbn [app] in *.
  eapply ends_suffix; [exact E1|]. eapply ends_suffix; [exact E2|]. eapply ends_suffix; [exact E3|].
  exists [], v. split; [reflexivity|]. destruct (vowels_split v Hv) as [K|K]; [exfalso|exact K].
  rewrite (sx_all_fail None 60 _ [NOT_FINAL] [v] final_not1 (wfe_call _)) in Ef; [discriminate|].
  apply inst_has_nil. constructor; [auto|constructor].
Qed.

Lemma short_final_ends u : plain u -> ev (Call N_short_final_rafsi) u = Some [] -> ends_with vowel_letter u.
Proof.
  intros Hu E. rewrite ev_Call in E.
  change (rule N_short_final_rafsi) with (Seq (Peek (Call N_final_syllable)) [Or [Seq (Call N_consonant) [Call N_diphthong]; Seq (Call N_initial_pair) [Call N_vowel]]; Peek (Call N_post_word)]) in E.
  rewrite ev_Seq in E by reflexivity. rewrite ev_Peek in E by reflexivity. destruct (ev (Call N_final_syllable) u) as [z|] eqn:Ef; [|discriminate].
  cbn [evs] in E. destruct (ev (Or _) u) as [r1|] eqn:E1; [|discriminate].
  rewrite ev_Peek in E by reflexivity. destruct (ev (Call N_post_word) r1); [|discriminate]. injection E as ->.
  destruct (shape_plain 20 (Or [Seq (Call N_consonant) [Call N_diphthong]; Seq (Call N_initial_pair) [Call N_vowel]])
    [[CONS; VOWELS; lit "iIuU"]; [CONS; CONS; VOWELS]] u []) as (m & q & -> & Hq & Hm); auto.
  destruct Hq as [<-|[<-|[]]]; inversion Hm as [|? x1 ? u1 [H1 C1] F1]; subst; inversion F1 as [|? x2 ? u2 [H2 C2] F2]; subst;
    inversion F2 as [|? x3 ? u3 [H3 C3] F3]; subst; inversion F3; subst; exists [x1; x2], x3; (split; [reflexivity|]).
  - apply vowel_letter_b. exact (char_sweep (lit "iIuU") (fun c => memb (lower c) (lit "aeiou")) x3 eq_refl H3).
  - destruct (vowels_split x3 H3) as [K|K]; [exfalso|exact K].
    rewrite (sx_all_fail None 60 _ [CONS; CONS; NOT_FINAL] ([x1; x2; x3] ++ []) final_not3 (wfe_call _)) in Ef; [discriminate|].
    apply inst_has_nil. repeat (constructor; [auto|]). constructor.
Qed.

Lemma lujvo_ends u : plain u -> accepts_all N_lujvo_minimal u = true -> ends_with vowel_letter u.
Proof.
  intros Hu. unfold accepts_all. destruct (ev (Call N_lujvo_minimal) u) as [[|c r]|] eqn:E; try discriminate. intros _.
  rewrite ev_Call in E. change (rule N_lujvo_minimal) with (Seq (Repeat 0 (Call N_initial_rafsi)) [Call N_brivla_core]) in E.
  rewrite ev_Seq in E by reflexivity. destruct (ev (Repeat 0 _) u) as [r1|] eqn:E1; [|discriminate]. cbn [evs] in E.
  destruct (ev (Call N_brivla_core) r1) as [r2|] eqn:E2; [|discriminate]. injection E as ->.
  assert (H1 : plain r1) by eauto using plain_suffix. eapply ends_suffix; [exact E1|].
  rewrite ev_Call in E2.
  change (rule N_brivla_core) with (Or [Call N_fuhivla; Call N_gismu; Call N_cvv_final_rafsi; Seq (Call N_stressed_initial_rafsi) [Call N_short_final_rafsi]]) in E2.
  rewrite ev_Or in E2 by reflexivity. apply evor_in in E2 as (e & He & E2). destruct He as [<-|[<-|[<-|[<-|[]]]]].
  - apply fuhivla_ends; assumption.
  - apply gismu_ends; [assumption|]. unfold accepts_all. rewrite E2. reflexivity.
  - apply cvv_final_ends; assumption.
  - rewrite ev_Seq in E2 by reflexivity. destruct (ev (Call N_stressed_initial_rafsi) r1) as [r2|] eqn:E3; [|discriminate].
    cbn [evs] in E2. destruct (ev (Call N_short_final_rafsi) r2) as [r3|] eqn:E4; [|discriminate]. injection E2 as ->.
    eapply ends_suffix; [exact E3|]. apply short_final_ends; [eauto using plain_suffix|assumption].
Qed.

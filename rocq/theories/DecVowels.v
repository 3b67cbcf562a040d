(** DecVowels.v -- how many vowels a rule takes at least; a gismu by itself. *)
From Verif Require Import Base Utf8 Span Peg Rules RulesApi PegMeta RulesTotal PegChars PegSim SymPeg Decompose DecomposeSpec DecomposeFacts
  DecomposeMachine DecomposeThms DecomposeSuffix DecomposeSim SpecText SpecMorph MorphFacts MorphCons MorphCmavo MorphGismu MorphThms DecMorph DecPrefix.
From Coq Require Import Lia Arith.

Section Count.
Context (K : list char).

Definition count (t : list char) : nat := List.length (filter (fun c => memb c K) t).
Lemma count_app a b : count (a ++ b) = (count a + count b)%nat.
Proof. unfold count. rewrite filter_app, app_length. reflexivity. Qed.

Definition mins (l : list nat) : nat := match l with [] => O | a :: l => fold_left Nat.min l a end.
Lemma fold_min_le l : forall a, (fold_left Nat.min l a <= a)%nat /\ forall x, In x l -> (fold_left Nat.min l a <= x)%nat.
Proof.
  induction l as [|b l IH]; intros a; cbn [fold_left]; [split; [lia|intros x []]|].
  destruct (IH (Nat.min a b)) as [H1 H2]. split; [lia|]. intros x [->|Hx]; [lia|auto].
Qed.
Lemma mins_le l x : In x l -> (mins l <= x)%nat.
Proof.
  destruct l as [|a l]; [intros []|]. cbn [mins]. destruct (fold_min_le l a) as [H1 H2]. intros [->|H]; auto.
Qed.

(** a lower bound for the number of chars of [K] that are taken *)
Fixpoint least (n : nat) (e : pexp nt) : nat :=
  match n with
  | O => O
  | S n => match e with
           | One chs => if forallb (fun c => memb c K) chs then 1%nat else O
           | Or es | Longest es => mins (map (least n) es)
           | Seq e es => fold_left (fun a e => a + least n e)%nat es (least n e)
           | Repeat m e => (m * least n e)%nat
           | AndPeek e _ | AndNot e _ => least n e
           | NotThen _ e => least n e
           | Call x => least n (rule x)
           | _ => O
           end
  end.

Definition takes (k : nat) (t r : list char) : Prop := exists m, t = m ++ r /\ (k <= count m)%nat.
Lemma takes_le k k' t r : takes k t r -> (k' <= k)%nat -> takes k' t r.
Proof. intros (m & E & H) L. exists m. split; [exact E|lia]. Qed.
Lemma takes_trans k k' a b c : takes k a b -> takes k' b c -> takes (k + k') a c.
Proof. intros (m & -> & H) (m' & -> & H'). exists (m ++ m'). rewrite app_assoc, count_app. split; [reflexivity|lia]. Qed.

Lemma takes_rep k e : wfe (Repeat 0 e) = true -> (forall t r, ev e t = Some r -> takes k t r) ->
  forall l t m r, (List.length t <= l)%nat -> ev (Repeat m e) t = Some r -> takes (m * k) t r.
Proof.
  intros Hw He. assert (Hw' : forall m, wfe (Repeat m e) = true) by (intros m; exact Hw).
  apply wfe_inv in Hw as [Hnn Hwe].
  induction l as [|l IH]; intros t m r Hl H; rewrite ev_Repeat in H by apply Hw'; destruct (ev e t) as [u|] eqn:E.
  - exfalso. apply ev_nonnull in E; [lia|exact Hnn].
  - destruct m; [|discriminate]. injection H as <-. exists []. split; [reflexivity|cbn; lia].
  - assert (L : (List.length u < List.length t)%nat) by (eapply ev_nonnull; eassumption).
    specialize (IH u (Nat.pred m) r ltac:(lia) H). apply He in E. pose proof (takes_trans _ _ _ _ _ E IH) as X.
    eapply takes_le; [exact X|]. destruct m; cbn [Nat.pred]; lia.
  - destruct m; [|discriminate]. injection H as <-. exists []. split; [reflexivity|cbn; lia].
Qed.

Lemma least_sound n : forall e t r, wfe e = true -> ev e t = Some r -> takes (least n e) t r.
Proof.
  induction n as [|n IH]; intros e t r Hw H.
  { cbn. apply ev_suffix in H as (m & ->). exists m. split; [reflexivity|lia]. }
  assert (Z : forall e t r, ev e t = Some r -> takes 0 t r).
  { intros e' t' r' H'. apply ev_suffix in H' as (m & ->). exists m. split; [reflexivity|lia]. }
  destruct e as [chs| | |e|e|es|es|e es|m e|e q|e q|q e|x]; cbn [least]; try (eapply Z; exact H).
  - destruct (forallb _ chs) eqn:F; [|eapply Z; exact H]. rewrite ev_One in H.
    destruct (next_char t) as [[c u]|] eqn:E; [|discriminate]. destruct (mem_char c chs) eqn:M; [|discriminate]. injection H as <-.
    apply next_char_split in E as (m & -> & _ & _). apply mem_char_In in M. pose proof (forallb_in _ _ _ F M) as X. cbv beta in X.
    exists (m ++ [c]). split; [rewrite <- app_assoc; reflexivity|]. rewrite count_app. unfold count at 2. cbn [filter]. rewrite X. cbn. lia.
  - rewrite ev_Or in H by exact Hw. apply wfe_inv in Hw. apply evor_in in H as (e & He & H).
    eapply takes_le; [apply (IH e t r); [eapply forallb_in; eassumption|exact H]|]. apply mins_le, in_map, He.
  - rewrite ev_Longest in H by exact Hw. apply wfe_inv in Hw. apply evlong_in in H as [H|(e & He & H)]; [discriminate|].
    eapply takes_le; [apply (IH e t r); [eapply forallb_in; eassumption|exact H]|]. apply mins_le, in_map, He.
  - rewrite ev_Seq in H by exact Hw. apply wfe_inv in Hw as [Hw Hws]. destruct (ev e t) as [u|] eqn:E; [|discriminate].
    apply IH in E; [|exact Hw]. revert u E H. generalize (least n e) as k. induction es as [|a es IHes]; intros k u E H.
    + cbn in H. injection H as <-. exact E.
    + cbn [forallb] in Hws. apply andb_true_iff in Hws as [Ha Hws]. cbn [evs] in H. destruct (ev a u) as [v|] eqn:Ev; [|discriminate].
      apply IH in Ev; [|exact Ha]. cbn [fold_left]. eapply (IHes Hws); [|exact H]. eapply takes_trans; eassumption.
  - eapply takes_rep; [exact Hw| |apply Nat.le_refl|exact H]. intros t' r' H'. apply IH; [apply wfe_inv in Hw; apply Hw|exact H'].
  - rewrite ev_AndPeek in H by exact Hw. apply wfe_inv in Hw as [Hw _]. destruct (ev e t) as [u|] eqn:E; [|discriminate].
    destruct (ev q u); [|discriminate]. injection H as <-. apply IH; assumption.
  - rewrite ev_AndNot in H by exact Hw. apply wfe_inv in Hw as [Hw _]. destruct (ev e t) as [u|] eqn:E; [|discriminate].
    destruct (ev q u); [discriminate|]. injection H as <-. apply IH; assumption.
  - rewrite ev_NotThen in H by exact Hw. apply wfe_inv in Hw as [_ Hw]. destruct (ev q t); [discriminate|]. apply IH; assumption.
  - rewrite ev_Call in H. apply IH; [apply wfe_rule|exact H].
Qed.
End Count.

Definition BRIVLA_RULES : list nt := [N_gismu; N_fuhivla; N_lujvo_minimal; N_explicitly_stressed_brivla_minimal].
Lemma least_brivla : forallb (fun x => Nat.leb 2 (least VOWELS 24 (Call x))) BRIVLA_RULES = true.
Proof. vm_compute. reflexivity. Qed.

(** every brivla takes two vowel letters *)
Lemma brivla_two_vowels x t r : In x BRIVLA_RULES -> ev (Call x) t = Some r -> takes VOWELS 2 t r.
Proof.
  intros Hx H. pose proof least_brivla as L. rewrite forallb_forall in L. specialize (L x Hx). apply Nat.leb_le in L.
  eapply takes_le; [apply (least_sound VOWELS 24 (Call x) t r (wfe_call x) H)|exact L].
Qed.

Lemma one_vowel_fails x t : In x BRIVLA_RULES -> (count VOWELS t < 2)%nat -> ev (Call x) t = None.
Proof.
  intros Hx H. destruct (ev (Call x) t) as [r|] eqn:E; [|reflexivity]. exfalso.
  destruct (brivla_two_vowels x t r Hx E) as (m & -> & Hm). rewrite count_app in H. lia.
Qed.

(** * A chunk that starts with two consonants *)
Lemma cc_no_cmavo t c d u : letters t = c :: d :: u -> In c CONS -> In d CONS -> ev (Call N_cmavo_minimal) t = None.
Proof.
  intros El Hc Hd. destruct (ev (Call N_cmavo_minimal) t) as [r|] eqn:E; [exfalso|reflexivity].
  destruct (cmavo_prefix t r E) as (m & -> & Hm). rewrite letters_app in El.
  destruct (letters m) as [|a l] eqn:Em; [exact (cmavo_text_ne _ Hm eq_refl)|]. injection El as -> El.
  pose proof (cmavo_text_tail _ _ _ Hm eq_refl) as F. destruct l as [|b l].
  - apply (cmavo_text_last _ Hm). exists [], c. split; [reflexivity|apply consonant_CONS, Hc].
  - injection El as -> _. inversion F; subst. eapply cons_not_nletter; eassumption.
Qed.

Lemma cc_one_word t c d u : letters t = c :: d :: u -> In c CONS -> In d CONS -> ends_comma t = false -> lacks CAPITAL_VOWELS t -> chunk_words t = [t].
Proof.
  intros El Hc Hd He Hl. destruct (simple_cmevla_check t) eqn:Es; [unfold chunk_words; rewrite Es; reflexivity|].
  rewrite chunk_words_finish by exact Es. assert (F : fall (List.length t) t = ([], t)).
  { destruct (List.length t) as [|k]; [reflexivity|]. cbn [fall]. rewrite fall_off_lacks by exact Hl. rewrite (cc_no_cmavo t c d u) by assumption. reflexivity. }
  rewrite F. apply finish_all; [exact He|]. intros ->. discriminate.
Qed.

(** * A gismu by itself *)
Lemma accepts_none x t : ev (Call x) t = None -> accepts x t = false.
Proof. intros H. unfold accepts. rewrite H. reflexivity. Qed.

Lemma count_cons_in c t : In c VOWELS -> count VOWELS (c :: t) = S (count VOWELS t).
Proof. intros H. unfold count. cbn [filter]. apply memb_In in H. rewrite H. reflexivity. Qed.
Lemma count_cons_out c t : In c CONS -> count VOWELS (c :: t) = count VOWELS t.
Proof.
  intros H. unfold count. cbn [filter]. pose proof (char_sweep CONS (fun c => negb (memb c VOWELS)) c eq_refl H) as X. cbv beta in X.
  destruct (memb c VOWELS); [discriminate|reflexivity].
Qed.

Lemma post_word_short t c d : (exists u, t = c :: d :: u) -> In c CONS -> In d CONS -> (count VOWELS t < 2)%nat -> post_word_ev t = false.
Proof.
  intros (u & ->) Hc Hd Hn. unfold post_word_ev.
  rewrite (accepts_none N_gismu), (accepts_none N_fuhivla), (accepts_none N_lujvo_minimal), (accepts_none N_cmavo_minimal);
    try (apply one_vowel_fails; [cbn; tauto|exact Hn]); [apply andb_false_r|].
  apply (cc_no_cmavo _ c d (letters u)); [|exact Hc|exact Hd]. unfold letters. cbn [filter]. rewrite <- !is_comma_eqb, (cons_plain c Hc), (cons_plain d Hd). reflexivity.
Qed.

Lemma vowels_cons_not c : In c VOWELS -> In c CONS -> False.
Proof.
  intros H H'. pose proof (char_sweep CONS (fun c => negb (memb c VOWELS)) c eq_refl H') as X. cbv beta in X. apply memb_In in H. rewrite H in X. discriminate.
Qed.

(** two vowels in front of nothing: nothing is left *)
Lemma two_vowels_all a v r : In v VOWELS -> (count VOWELS a <= 1)%nat -> takes VOWELS 2 (a ++ [v]) r -> r = [].
Proof.
  intros Hv Ha (m & E & Hm). destruct r as [|c r]; [reflexivity|exfalso].
  destruct (exists_last (l := c :: r) ltac:(discriminate)) as (r' & x & Er). rewrite Er, app_assoc in E.
  apply app_inj_tail in E as [-> ->]. rewrite count_app in Ha. lia.
Qed.

Lemma plain_gismu_one u : gismu_form vowel_or_y lowercase_vowel u -> chunk_words u = [u].
Proof.
  intros H. assert (Hlv : forall v, lowercase_vowel v -> In v VOWELS) by (intros; apply lowercase_VOWELS; assumption).
  assert (P : exists a v, u = a ++ [v] /\ In v VOWELS /\ (count VOWELS a <= 1)%nat /\ plain u /\
     ((exists c d l, u = c :: d :: l /\ In c CONS /\ In d CONS) \/
      (exists c x d e l, u = c :: x :: d :: e :: l /\ In c CONS /\ In x VOWELS /\ In d CONS /\ In e CONS))).
  { destruct H as [(c1 & v1 & c2 & c3 & v2 & -> & H1 & H2 & H3 & H4)|(c1 & c2 & v1 & c3 & v2 & -> & H1 & H2 & H3 & H4)].
    - exists [c1; v1; c2; c3], v2. apply vowel_or_y_VOWELS in H2. apply consonant_CONS in H1. destruct H3 as (H5 & H6 & _).
      apply consonant_CONS in H5, H6. apply Hlv in H4. split; [reflexivity|]. split; [exact H4|].
      split; [rewrite count_cons_out, count_cons_in, !count_cons_out by assumption; cbn; lia|].
      split; [repeat apply Forall_cons; try apply Forall_nil; (apply cons_plain; assumption) || (apply (in_plain _ VOWELS); [reflexivity|assumption])|].
      right. exists c1, v1, c2, c3, [v2]. auto.
    - destruct (initial_cons c1 c2 H1) as [H5 H6]. apply consonant_CONS in H3. apply vowel_or_y_VOWELS in H2. apply Hlv in H4.
      exists [c1; c2; v1; c3], v2. split; [reflexivity|]. split; [exact H4|].
      split; [rewrite !count_cons_out, count_cons_in, !count_cons_out by assumption; cbn; lia|].
      split; [repeat apply Forall_cons; try apply Forall_nil; (apply cons_plain; assumption) || (apply (in_plain _ VOWELS); [reflexivity|assumption])|].
      left. exists c1, c2, [v1; c3; v2]. auto. }
  clear H Hlv. destruct P as (a & v & E & Hv & Ha & Hp & Hh).
  assert (Hs : simple_cmevla_check u = false).
  { destruct (simple_cmevla_check u) eqn:Es; [exfalso|reflexivity]. apply cmevla_check_ends in Es as (m & c & Em & Hc).
    rewrite letters_id in Em by exact Hp. rewrite E in Em. apply app_inj_tail in Em as [_ ->]. apply consonant_CONS in Hc. eapply vowels_cons_not; eassumption. }
  assert (Hcm : ends_comma u = false) by (apply ends_comma_plain, Hp).
  destruct (fall_off_ev u) as [r|] eqn:F.
  - unfold fall_off_ev in F. destruct (ev (Call N_cmavo_minimal) u) as [r'|] eqn:Ec.
    + injection F as <-. destruct Hh as [(c & d & l & El & Hc & Hd)|(c & x & d & e & l & El & Hc & Hx & Hd & He)].
      { rewrite (cc_no_cmavo u c d l) in Ec; [discriminate| |exact Hc|exact Hd]. rewrite letters_id by exact Hp. exact El. }
      destruct (cmavo_prefix u r' Ec) as (m & Em & Hm).
      assert (Hpm : plain m) by (rewrite Em in Hp; apply plain_app in Hp; tauto). rewrite letters_id in Hm by exact Hpm.
      assert (m = [c; x]) as ->.
      { rewrite El in Em. destruct m as [|m1 m]; [exfalso; exact (cmavo_text_ne _ Hm eq_refl)|]. injection Em as <- Em.
        destruct m as [|m2 m]; [exfalso; apply (cmavo_text_last _ Hm); exists [], c; split; [reflexivity|apply consonant_CONS, Hc]|].
        injection Em as <- Em. destruct m as [|m3 m]; [reflexivity|]. exfalso. injection Em as <- Em.
        pose proof (cmavo_text_tail _ _ _ Hm eq_refl) as G. apply Forall_inv_tail, Forall_inv in G. exact (cons_not_nletter _ Hd G). }
      rewrite El in Em. injection Em as Em. subst r'.
      rewrite chunk_words_finish by exact Hs. rewrite El in Ec |- *. cbn [List.length]. cbn [fall].
      assert (Hl2 : fall_off_ev (d :: e :: l) = None).
      { unfold fall_off_ev. rewrite (cc_no_cmavo (d :: e :: l) d e l); [|rewrite letters_id; [reflexivity|]|exact Hd|exact He].
        - apply (one_vowel_fails N_explicitly_stressed_brivla_minimal); [cbn; tauto|]. rewrite El in E.
          assert (X : count VOWELS (c :: x :: d :: e :: l) = count VOWELS (a ++ [v])) by (rewrite E; reflexivity).
          rewrite count_app, count_cons_out, count_cons_in, (count_cons_in v []) in X by assumption. change (count VOWELS []) with O in X. lia.
        - rewrite El in Hp. apply plain_cons in Hp as [_ Hp]. apply plain_cons in Hp as [_ Hp]. exact Hp. }
      unfold fall_off_ev at 1. rewrite Ec. rewrite Hl2.
      change (before (c :: x :: d :: e :: l) (d :: e :: l)) with (before ([c; x] ++ d :: e :: l) (d :: e :: l)). rewrite before_app.
      rewrite (post_word_short _ d e); [|eauto|exact Hd|exact He|].
      * cbn [removelast last app]. rewrite <- El. apply finish_all; [exact Hcm|]. rewrite El. discriminate.
      * rewrite El in E. assert (X : count VOWELS (c :: x :: d :: e :: l) = count VOWELS (a ++ [v])) by (rewrite E; reflexivity).
        rewrite count_app, count_cons_out, count_cons_in, (count_cons_in v []) in X by assumption. change (count VOWELS []) with O in X. lia.
    + apply all_off_alone; [exact Hcm|exact Hs|]. unfold fall_off_ev. rewrite Ec, F. f_equal.
      apply (brivla_two_vowels N_explicitly_stressed_brivla_minimal) in F; [|cbn; tauto]. rewrite E in F. eapply two_vowels_all; eassumption.
  - rewrite chunk_words_finish by exact Hs. destruct u as [|c0 u0] eqn:Eu; [exfalso; exact (app_cons_not_nil _ _ _ E)|].
    cbn [List.length fall]. rewrite F. apply finish_all; [exact Hcm|discriminate].
Qed.

(** DecStress.v -- words cut off because of their stress have a capital vowel. *)
From Verif Require Import Base Utf8 Span Peg Rules RulesApi PegMeta RulesTotal PegChars PegSim SymPeg Decompose DecomposeSpec DecomposeFacts
  DecomposeMachine DecomposeThms DecomposeSuffix DecomposeSim SpecText SpecMorph MorphFacts MorphCons MorphCmavo MorphGismu MorphThms DecMorph DecPrefix DecVowels.
From Coq Require Import Lia Arith.

(** * [least] with rules about which more is known *)
Section Known.
Context (K : list char) (known : nt -> option nat).
Context (known_sound : forall x k t r, known x = Some k -> ev (Call x) t = Some r -> takes K k t r).

Fixpoint leastk (n : nat) (e : pexp nt) : nat :=
  match n with
  | O => O
  | S n => match e with
           | One chs => if forallb (fun c => memb c K) chs then 1%nat else O
           | Or es | Longest es => mins (map (leastk n) es)
           | Seq e es => fold_left (fun a e => a + leastk n e)%nat es (leastk n e)
           | Repeat m e => (m * leastk n e)%nat
           | AndPeek e _ | AndNot e _ => leastk n e
           | NotThen _ e => leastk n e
           | Call x => match known x with Some k => k | None => leastk n (rule x) end
           | _ => O
           end
  end.

Lemma leastk_sound n : forall e t r, wfe e = true -> ev e t = Some r -> takes K (leastk n e) t r.
Proof.
  induction n as [|n IH]; intros e t r Hw H.
  { cbn. apply ev_suffix in H as (m & ->). exists m. split; [reflexivity|lia]. }
  assert (Z : forall e t r, ev e t = Some r -> takes K 0 t r).
  { intros e' t' r' H'. apply ev_suffix in H' as (m & ->). exists m. split; [reflexivity|lia]. }
  destruct e as [chs| | |e|e|es|es|e es|m e|e q|e q|q e|x]; cbn [leastk]; try (eapply Z; exact H).
  - destruct (forallb _ chs) eqn:F; [|eapply Z; exact H]. rewrite ev_One in H.
    destruct (next_char t) as [[c u]|] eqn:E; [|discriminate]. destruct (mem_char c chs) eqn:M; [|discriminate]. injection H as <-.
    apply next_char_split in E as (m & -> & _ & _). apply mem_char_In in M. pose proof (forallb_in _ _ _ F M) as X. cbv beta in X.
    exists (m ++ [c]). split; [rewrite <- app_assoc; reflexivity|]. rewrite count_app. unfold count at 2. cbn [filter]. rewrite X. cbn. lia.
  - rewrite ev_Or in H by exact Hw. apply wfe_inv in Hw. apply evor_in in H as (e & He & H).
    eapply takes_le; [apply (IH e t r); [eapply forallb_in; eassumption|exact H]|]. apply mins_le, in_map, He.
  - rewrite ev_Longest in H by exact Hw. apply wfe_inv in Hw. apply evlong_in in H as [H|(e & He & H)]; [discriminate|].
    eapply takes_le; [apply (IH e t r); [eapply forallb_in; eassumption|exact H]|]. apply mins_le, in_map, He.
  - rewrite ev_Seq in H by exact Hw. apply wfe_inv in Hw as [Hw Hws]. destruct (ev e t) as [u|] eqn:E; [|discriminate].
    apply IH in E; [|exact Hw]. revert u E H. generalize (leastk n e) as k. induction es as [|a es IHes]; intros k u E H.
    + cbn in H. injection H as <-. exact E.
    + cbn [forallb] in Hws. apply andb_true_iff in Hws as [Ha Hws]. cbn [evs] in H. destruct (ev a u) as [v|] eqn:Ev; [|discriminate].
      apply IH in Ev; [|exact Ha]. cbn [fold_left]. eapply (IHes Hws); [|exact H]. eapply takes_trans; eassumption.
  - eapply takes_rep; [exact Hw| |apply Nat.le_refl|exact H]. intros t' r' H'. apply IH; [apply wfe_inv in Hw; apply Hw|exact H'].
  - rewrite ev_AndPeek in H by exact Hw. apply wfe_inv in Hw as [Hw _]. destruct (ev e t) as [u|] eqn:E; [|discriminate].
    destruct (ev q u); [|discriminate]. injection H as <-. apply IH; assumption.
  - rewrite ev_AndNot in H by exact Hw. apply wfe_inv in Hw as [Hw _]. destruct (ev e t) as [u|] eqn:E; [|discriminate].
    destruct (ev q u); [discriminate|]. injection H as <-. apply IH; assumption.
  - rewrite ev_NotThen in H by exact Hw. apply wfe_inv in Hw as [_ Hw]. destruct (ev q t); [discriminate|]. apply IH; assumption.
  - destruct (known x) as [k|] eqn:Ek; [eapply known_sound; eassumption|]. rewrite ev_Call in H. apply IH; [apply wfe_rule|exact H].
Qed.
End Known.

(** * What carries the stress is taken *)
Lemma takes_capital m r c : In c m -> In c CAPITAL_VOWELS -> takes CAPITAL_VOWELS 1 (m ++ r) r.
Proof.
  intros Hm Hc. exists m. split; [reflexivity|]. unfold count.
  assert (X : In c (filter (fun c => memb c CAPITAL_VOWELS) m)) by (apply filter_In; split; [exact Hm|apply memb_In, Hc]).
  destruct (filter _ m); [destruct X|cbn; lia].
Qed.

Lemma letters_in c m : In c (letters m) -> In c m.
Proof. unfold letters. intros H. apply filter_In in H. apply H. Qed.

Lemma ev_stressed t r : ev (Call N_stressed) t = Some r ->
  exists t1 c, ev (Call N_onset) t = Some t1 /\ In c CAPITAL_VOWELS /\ letters t1 = c :: letters r.
Proof.
  rewrite ev_Call. change (rule N_stressed) with (Seq (Call N_onset) [One (lit "AEIOU")]). rewrite ev_Seq by reflexivity.
  destruct (ev (Call N_onset) t) as [t1|]; [|discriminate]. cbn [evs]. rewrite ev_One.
  destruct (next_char t1) as [[c u]|] eqn:E; [|discriminate]. destruct (mem_char c (lit "AEIOU")) eqn:M; [|discriminate]. intros [= <-].
  apply next_char_split in E as (m & -> & Hm & Hc). apply mem_char_In in M. exists (m ++ c :: u), c.
  split; [reflexivity|]. split; [exact M|]. rewrite letters_app, Hm. unfold letters. cbn [filter app]. rewrite <- is_comma_eqb, Hc. reflexivity.
Qed.

Lemma vowel_not_in v (L : list char) : In v VOWELS -> forallb (fun c => negb (memb c L)) VOWELS = true -> ~ In v L.
Proof.
  intros Hv H Hl. pose proof (char_sweep VOWELS _ v H Hv) as X. cbv beta in X. apply memb_In in Hl. rewrite Hl in X. discriminate.
Qed.

(** an onset before a vowel is empty or a glide *)
Lemma onset_vowel t t1 v l : letters t = v :: l -> In v VOWELS -> ev (Call N_onset) t = Some t1 ->
  letters t1 = v :: l \/ exists u, next_char t = Some (v, u) /\ ev (Call N_nucleus) u <> None /\ In v (lit "iIuU").
Proof.
  intros El Hv. rewrite ev_Call. change (rule N_onset) with (Or [Call N_h; Call N_glide; Call N_initial]).
  rewrite ev_Or by reflexivity. cbn [evor]. destruct (ev (Call N_h) t) as [r|] eqn:Eh.
  { exfalso. apply h_prefix in Eh as (m & h & -> & Em & Hh). rewrite letters_app, Em in El. injection El as -> _.
    unfold apostrophe in Hh. revert Hh. apply vowel_not_in; [exact Hv|vm_compute; reflexivity]. }
  destruct (ev (Call N_glide) t) as [r|] eqn:Eg.
  { intros _. right. rewrite ev_Call in Eg. change (rule N_glide) with (AndPeek (One (lit "iIuU")) (Call N_nucleus)) in Eg.
    rewrite ev_AndPeek in Eg by reflexivity. rewrite ev_One in Eg. destruct (next_char t) as [[c u]|] eqn:E; [|discriminate].
    destruct (mem_char c (lit "iIuU")) eqn:M; [|discriminate]. destruct (ev (Call N_nucleus) u) eqn:N; [|discriminate].
    apply next_char_split in E as (m & -> & Hm & Hc). rewrite letters_app, Hm in El. unfold letters in El. cbn [filter app] in El.
    rewrite <- is_comma_eqb, Hc in El. injection El as -> _. exists u. split; [reflexivity|]. split; [congruence|]. apply mem_char_In, M. }
  destruct (ev (Call N_initial) t) as [r|] eqn:Ei; [|discriminate]. intros [= <-]. left.
  destruct (shape_letters 20 (Call N_initial) INIT_SHAPES t r) as (m & q & -> & Hq & Hm); auto.
  rewrite letters_app in El. destruct (letters m) as [|c l'] eqn:Em; [exact El|]. exfalso. injection El as -> _.
  inversion Hm as [|K ? q' ? [Hc _] _]; subst.
  assert (HK : K = CONS) by (unfold INIT_SHAPES in Hq; cbn [In] in Hq; intuition congruence). subst K.
  revert Hc. apply vowel_not_in; [exact Hv|vm_compute; reflexivity].
Qed.

Lemma stressed_vowel_takes t r : ev (Call N_explicitly_stressed_vowel) t = Some r -> takes CAPITAL_VOWELS 1 t r.
Proof.
  rewrite ev_Call. change (rule N_explicitly_stressed_vowel) with (Seq (Peek (Call N_stressed)) [Call N_vowel]).
  rewrite ev_Seq by reflexivity. rewrite ev_Peek by reflexivity. destruct (ev (Call N_stressed) t) as [z|] eqn:Es; [|discriminate].
  cbn [evs]. rewrite ev_Call. change (rule N_vowel) with (AndNot (One (lit "aAeEiIoOuUyY")) (Call N_nucleus)).
  rewrite ev_AndNot by reflexivity. rewrite ev_One. destruct (next_char t) as [[v u]|] eqn:E; [|discriminate].
  destruct (mem_char v (lit "aAeEiIoOuUyY")) eqn:M; [|discriminate]. destruct (ev (Call N_nucleus) u) eqn:N; [discriminate|]. intros [= <-].
  apply ev_stressed in Es as (t1 & c & Eo & Hc & El). pose proof E as E'. apply next_char_split in E as (m & -> & Hm & Hv).
  assert (Lt : letters (m ++ v :: u) = v :: letters u).
  { rewrite letters_app, Hm. unfold letters. cbn [filter app]. rewrite <- is_comma_eqb, Hv. reflexivity. }
  assert (Vv : In v VOWELS).
  { apply mem_char_In in M. apply memb_In. apply (char_sweep (lit "aAeEiIoOuUyY") (fun c => memb c VOWELS)); [vm_compute; reflexivity|exact M]. }
  destruct (onset_vowel _ t1 v (letters u) Lt Vv Eo) as [L|(u' & E1 & N' & _)].
  - rewrite El in L. injection L as -> _. replace (m ++ v :: u) with ((m ++ [v]) ++ u) by (rewrite <- app_assoc; reflexivity).
    apply (takes_capital _ _ v); [apply in_or_app; right; left; reflexivity|exact Hc].
  - rewrite E' in E1. injection E1 as <-. congruence.
Qed.

Lemma stressed_diphthong_takes t r : ev (Call N_explicitly_stressed_diphthong) t = Some r -> takes CAPITAL_VOWELS 1 t r.
Proof.
  rewrite ev_Call. change (rule N_explicitly_stressed_diphthong) with (Seq (Peek (Call N_stressed)) [Call N_diphthong]).
  rewrite ev_Seq by reflexivity. rewrite ev_Peek by reflexivity. destruct (ev (Call N_stressed) t) as [z|] eqn:Es; [|discriminate].
  cbn [evs]. destruct (ev (Call N_diphthong) t) as [r'|] eqn:Ed; [|discriminate]. intros [= <-].
  apply ev_stressed in Es as (t1 & c & Eo & Hc & El).
  destruct (shape_letters 12 (Call N_diphthong) [[lit "aAeEoO"; lit "iIuU"]] t r') as (m & q & -> & [<-|[]] & Hm); auto.
  inversion Hm as [|? v ? l' [Hv _] Hm' Eq El']; subst. symmetry in El'.
  assert (Vv : In v VOWELS).
  { apply memb_In. apply (char_sweep (lit "aAeEoO") (fun c => memb c VOWELS)); [vm_compute; reflexivity|exact Hv]. }
  destruct (onset_vowel _ t1 v (l' ++ letters r') ltac:(rewrite letters_app, El'; reflexivity) Vv Eo) as [L|(u & _ & _ & Hi)].
  - rewrite El in L. injection L as -> _. apply (takes_capital _ _ v); [|exact Hc]. apply letters_in. rewrite El'. left. reflexivity.
  - exfalso. pose proof (char_sweep (lit "aAeEoO") (fun c => negb (memb c (lit "iIuU"))) v eq_refl Hv) as X. cbv beta in X.
    apply memb_In in Hi. rewrite Hi in X. discriminate.
Qed.

Lemma stressed_syllable_takes t r : ev (Call N_explicitly_stressed_syllable) t = Some r -> takes CAPITAL_VOWELS 1 t r.
Proof.
  rewrite ev_Call. change (rule N_explicitly_stressed_syllable) with (Seq (Peek (Call N_stressed)) [Call N_syllable]).
  rewrite ev_Seq by reflexivity. rewrite ev_Peek by reflexivity. destruct (ev (Call N_stressed) t) as [z|] eqn:Es; [|discriminate].
  cbn [evs]. destruct (ev (Call N_syllable) t) as [r'|] eqn:Ey; [|discriminate]. intros [= <-].
  apply ev_stressed in Es as (t1 & c & Eo & Hc & El). rewrite ev_Call in Ey.
  change (rule N_syllable) with (Seq (Call N_onset) [Not (Call N_y); Call N_nucleus; Opt (Call N_coda)]) in Ey.
  rewrite ev_Seq in Ey by reflexivity. rewrite Eo in Ey. cbn [evs] in Ey. rewrite ev_Not in Ey by reflexivity.
  destruct (ev (Call N_y) t1); [discriminate|]. destruct (ev (Call N_nucleus) t1) as [t2|] eqn:En; [|discriminate].
  destruct (ev (Opt (Call N_coda)) t2) as [t3|] eqn:Eq; [|discriminate]. injection Ey as ->.
  apply ev_suffix in Eq as (k & ->). apply nucleus_prefix in En as (n & -> & Hn). apply ev_suffix in Eo as (m & ->).
  apply nucleus_head in Hn as (v & l & Hn & _). rewrite letters_app, Hn in El. injection El as -> _.
  replace (m ++ n ++ k ++ r') with ((m ++ n ++ k) ++ r') by (rewrite <- !app_assoc; reflexivity).
  apply (takes_capital _ _ c); [|exact Hc]. apply in_or_app. right. apply in_or_app. left. apply letters_in. rewrite Hn. left. reflexivity.
Qed.

Definition stress_known (x : nt) : option nat :=
  match x with
  | N_explicitly_stressed_vowel | N_explicitly_stressed_diphthong | N_explicitly_stressed_syllable => Some 1%nat
  | _ => None
  end.

Lemma stressed_takes t r : ev (Call N_explicitly_stressed_brivla_minimal) t = Some r -> takes CAPITAL_VOWELS 1 t r.
Proof.
  intros H. assert (L : Nat.leb 1 (leastk CAPITAL_VOWELS stress_known 24 (Call N_explicitly_stressed_brivla_minimal)) = true) by (vm_compute; reflexivity).
  apply Nat.leb_le in L. eapply takes_le; [|exact L]. apply leastk_sound; [|apply wfe_call|exact H].
  clear. intros x k t r Hk H. destruct x; try discriminate; injection Hk as <-;
    [apply stressed_vowel_takes|apply stressed_syllable_takes|apply stressed_diphthong_takes]; exact H.
Qed.

(** * The words of any chunk *)
Definition stressed_word (w : list char) : Prop :=
  (exists c, In c w /\ In c CAPITAL_VOWELS) /\ (2 <= count VOWELS w)%nat /\ ends_comma w = false.

Lemma count_pos K m : (1 <= count K m)%nat -> exists c, In c m /\ In c K.
Proof.
  unfold count. destruct (filter (fun c => memb c K) m) as [|c l] eqn:E; [cbn; lia|]. intros _. exists c.
  assert (X : In c (filter (fun c => memb c K) m)) by (rewrite E; left; reflexivity). apply filter_In in X as [X1 X2]. apply memb_In in X2. auto.
Qed.

Lemma fall_off_word t r : fall_off_ev t = Some r -> cmavo_word (before t r) \/ stressed_word (before t r).
Proof.
  intros H. destruct (fall_off_ev_some t r H) as (_ & Hw & _). apply word_like_ends in Hw. unfold fall_off_ev in H.
  destruct (ev (Call N_cmavo_minimal) t) as [r'|] eqn:E; [injection H as ->; left; apply fall_off_cmavo, E|]. right.
  pose proof (stressed_takes t r H) as (m & Et & Hm). pose proof (brivla_two_vowels N_explicitly_stressed_brivla_minimal t r ltac:(cbn; tauto) H) as (m' & Et' & Hm').
  rewrite Et in Et'. apply app_inv_tail in Et'. subst m' t. rewrite before_app in *. repeat split; [apply count_pos, Hm|exact Hm'|exact Hw].
Qed.

Lemma fall_words k : forall t ws rest, fall k t = (ws, rest) -> Forall (fun w => cmavo_word w \/ stressed_word w) ws.
Proof.
  induction k as [|k IH]; intros t ws rest; cbn [fall]; [intros [= <- <-]; constructor|].
  destruct (fall_off_ev t) as [r|] eqn:E; [|intros [= <- <-]; constructor].
  destruct (fall k r) as [ws' rest'] eqn:F. intros [= <- <-]. constructor; [apply fall_off_word, E|]. eapply IH; exact F.
Qed.

Lemma leading_words t : Forall (fun w => cmavo_word w \/ stressed_word w) (removelast (chunk_words t)).
Proof.
  destruct (simple_cmevla_check t) eqn:Es.
  - unfold chunk_words. rewrite Es. constructor.
  - rewrite chunk_words_finish by exact Es. destruct (fall (List.length t) t) as [ws rest] eqn:F.
    apply fall_words in F. destruct ws as [|w ws]; [apply finish_leading; constructor|].
    destruct (post_word_ev rest); apply finish_leading; [exact F|apply Forall_removelast, F].
Qed.

Lemma word_alone_any t us w vs : ends_comma t = false -> chunk_words t = us ++ w :: vs ->
  (vs = [] \/ lacks CAPITAL_VOWELS w \/ cmavo_text (letters w)) -> chunk_words w = [w].
Proof.
  intros Hc H Hor. destruct vs as [|v vs]; [eapply last_alone; eassumption|]. destruct Hor as [Hor|Hor]; [discriminate|].
  pose proof (leading_words t) as F. rewrite H in F. rewrite removelast_app in F by discriminate.
  apply Forall_app in F as [_ F]. cbn [removelast] in F. apply Forall_inv in F. destruct F as [F|F]; [apply cmavo_alone, F|].
  destruct F as ((c & Hw & Hk) & _ & He). destruct Hor as [Hl|Hm].
  - exfalso. unfold lacks in Hl. rewrite Forall_forall in Hl. exact (Hl c Hw Hk).
  - apply cmavo_alone. split; assumption.
Qed.

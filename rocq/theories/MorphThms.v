(** MorphThms.v -- from the rules to [classify]: gismu, cmavo, endings, pairs. *)
From Verif Require Import Base Utf8 Peg Rules RulesApi PegMeta RulesTotal PegChars PegSim SymPeg Selmaho ClassifyTable Classify
  SpecText SpecCmavo SpecMorph ClassifyFacts ClassifyThms MorphFacts MorphCons MorphCmavo MorphGismu.
From Coq Require Import Lia Arith.

(** * The table *)
Definition WORD_CLASSES : list Selmaho := [S_Cmevla; S_UnknownCmavo; S_Gismu; S_Fuhivla; S_Lujvo; S_AnyText; S_ZoiDelimiter].

Lemma arms_classes : forallb (fun '(p, s, e) => negb (existsb (fun s' => String.eqb (as_repr s) (as_repr s')) WORD_CLASSES)) table_arms = true.
Proof. vm_compute. reflexivity. Qed.

Lemma listed_class w s e : listed w s e -> ~ In s WORD_CLASSES.
Proof.
  intros H Hs. pose proof arms_classes as K. rewrite forallb_forall in K.
  assert (Hin : exists p, In (p, s, e) table_arms) by (destruct H as [(l & x & H & _)|(H & _)]; eauto).
  destruct Hin as (p & Hin). specialize (K _ Hin). cbv beta iota in K. apply negb_true_iff in K.
  rewrite <- not_true_iff_false in K. apply K. apply existsb_exists. exists s. split; [exact Hs|apply String.eqb_refl].
Qed.

(** a decision procedure for cmavo forms, for the table *)
Definition nuc1 (v : char) : bool := memb v VOWELS.
Definition nuc2 (v w : char) : bool := (memb v (lit "aA") && memb w (lit "iIuU")) || (memb v (lit "eEoO") && memb w (lit "iI")).
Fixpoint nuclei_b (n : nat) (w : list char) : bool :=
  match n with
  | O => false
  | S n => match w with
           | [] => false
           | v :: r =>
               if (if nuc1 v then match r with [] => true | h :: r' => if memb h APOS then nuclei_b n r' else false end else false) then true else
               match r with
               | [] => false
               | w :: r' => if nuc2 v w then match r' with [] => true | h :: r'' => if memb h APOS then nuclei_b n r'' else false end else false
               end
           end
  end.
Definition cmavo_b (w : list char) : bool :=
  match w with
  | [] => false
  | c :: r => (match r with [] => memb c (lit "0123456789") | _ => false end) || forallb (fun c => memb c (lit "yY")) w ||
              nuclei_b (List.length w) w || ((memb c CONS || memb c (lit "iIuU")) && nuclei_b (List.length w) r)
  end.

Lemma nuc1_nucleus v : nuc1 v = true -> nucleus [v].
Proof. intros H. left. exists v. split; [reflexivity|]. apply vowel_or_y_VOWELS, memb_In, H. Qed.
Lemma nuc2_nucleus v w : nuc2 v w = true -> nucleus [v; w].
Proof.
  intros H. apply nucleus_has. unfold nuc2 in H. apply orb_true_iff in H as [H|H]; apply andb_true_iff in H as [H1 H2];
    apply memb_In in H1; apply memb_In in H2.
  - exists [lit "aA"; lit "iIuU"]. split; [cbn; tauto|]. constructor; [|constructor; [|constructor]];
      (split; [assumption|eapply in_plain; [|eassumption]; reflexivity]).
  - exists [lit "eEoO"; lit "iI"]. split; [cbn; tauto|]. constructor; [|constructor; [|constructor]];
      (split; [assumption|eapply in_plain; [|eassumption]; reflexivity]).
Qed.

Lemma nuclei_b_sound n : forall w, nuclei_b n w = true -> nuclei w.
Proof.
  induction n as [|n IH]; intros w; [discriminate|]. destruct w as [|v r]; [discriminate|]. cbn [nuclei_b]. intros H.
  apply orb_true_iff in H as [H|H].
  - apply andb_true_iff in H as [H1 H2]. apply nuc1_nucleus in H1. destruct r as [|h r]; [apply nuclei_one, H1|].
    apply andb_true_iff in H2 as [H2 H3]. apply (nuclei_more [v] h r H1); [apply memb_In, H2|apply IH, H3].
  - destruct r as [|w r]; [discriminate|]. apply andb_true_iff in H as [H1 H2]. apply nuc2_nucleus in H1.
    destruct r as [|h r]; [apply nuclei_one, H1|].
    apply andb_true_iff in H2 as [H2 H3]. apply (nuclei_more [v; w] h r H1); [apply memb_In, H2|apply IH, H3].
Qed.

Lemma cmavo_b_sound w : cmavo_b w = true -> cmavo_text w.
Proof.
  destruct w as [|c r]; [discriminate|]. unfold cmavo_b. rewrite !orb_true_iff. intros [[[H|H]|H]|H].
  - destruct r; [|discriminate]. left. exists c. split; [reflexivity|apply memb_In, H].
  - right. left. split; [discriminate|]. apply Forall_forall. intros d Hd. apply memb_In. exact (forallb_in _ _ _ H Hd).
  - right. right. left. eapply nuclei_b_sound, H.
  - right. right. right. apply andb_true_iff in H as [H1 H2]. exists c, r. split; [reflexivity|]. split; [eapply nuclei_b_sound, H2|].
    apply orb_true_iff in H1 as [H1|H1]; [left; apply consonant_CONS, memb_In, H1|right]. apply memb_In in H1.
    apply memb_In. exact (char_sweep (lit "iIuU") (fun c => memb (lower c) (lit "iu")) c eq_refl H1).
Qed.

Definition MISSPELT : list char := lit " vi'ei'e".

Lemma arms_forms : forallb (fun '(p, s, e) => match p with
    | Lits l => forallb (fun x => cmavo_b (lit x) || list_eqb (lit x) MISSPELT) l
    | AllY => true end) table_arms = true.
Proof. vm_compute. reflexivity. Qed.

Lemma listed_form w s e : listed w s e -> cmavo_text w \/ w = MISSPELT.
Proof.
  intros [(l & x & H & Hx & ->)|(_ & n & ->)].
  - pose proof arms_forms as K. rewrite forallb_forall in K. specialize (K _ H). cbv beta iota in K.
    pose proof (forallb_in _ _ _ K Hx) as M. cbv beta in M. apply orb_true_iff in M as [M|M].
    + left. apply cmavo_b_sound, M.
    + right. apply list_eqb_eq, M.
  - left. right. left. split; [discriminate|]. apply Forall_forall. intros c Hc. apply repeat_spec in Hc. subst. cbn. tauto.
Qed.

(** * Reduction to letters *)
Lemma general_letters t : general_class t = if ends_comma t then S_AnyText else general_class (letters t).
Proof.
  unfold general_class. rewrite !(accepts_all_letters _ t). destruct (ends_comma t); reflexivity.
Qed.

Lemma ends_comma_last t : ends_comma t = false <-> last t 0 <> 44.
Proof. unfold ends_comma. rewrite is_comma_eqb. apply N.eqb_neq. Qed.

Lemma classify_general w s e : scalars (txt w) -> In s WORD_CLASSES ->
  (classify w = Ret (s, e) <->
   s = general_class (txt w) /\ e = is_fundamentally_experimental s /\
   ((forall s' e', ~ listed (spelling (txt w)) s' e') \/ 16 < blen (spelling (txt w)))).
Proof.
  intros Hs Hc. rewrite classify_spec by exact Hs. unfold class_of, entry.
  rewrite <- (spelling_spell (txt w)). generalize (spelling (txt w)) as u. generalize (general_class (txt w)) as g. intros g u.
  assert (R : forall (a : Selmaho) (b : bool) c d, Ret (a, b) = Ret (c, d) <-> a = c /\ b = d) by (intros; split; [intros [= -> ->]; auto|intros [-> ->]; reflexivity]).
  destruct (N.leb_spec (blen u) 16) as [L|L].
  - destruct (table_lookup table_arms u) as [[s' e']|] eqn:E.
    + apply lookup_listed in E. rewrite R. split.
      * intros [-> _]. exfalso. eapply listed_class; eassumption.
      * intros (_ & _ & [N|N]); [exfalso; eapply N; exact E|lia].
    + rewrite R. split.
      * intros [<- <-]. split; [reflexivity|]. split; [reflexivity|]. left. intros s' e' Hl. apply listed_lookup in Hl. rewrite E in Hl.
        clear - Hl. discriminate Hl.
      * intros (-> & -> & _). split; reflexivity.
  - rewrite R. split; [intros [<- <-]; auto|intros (-> & -> & _); split; reflexivity].
Qed.

(** * Last letters *)
Lemma cmavo_text_last u : cmavo_text u -> ~ ends_with consonant_letter u.
Proof.
  intros H (m & c & E & Hc). apply consonant_CONS in Hc.
  assert (N : ~ In c NLETTERS) by (apply cons_not_nletter, Hc).
  destruct m as [|d m].
  - cbn [app] in E. subst u. destruct H as [(d & [= <-] & Hd)|[[_ H]|[H|(d & r & [= <- <-] & Hr & _)]]].
    + pose proof (char_sweep (lit "0123456789") (fun c => negb (memb c CONS)) c eq_refl Hd) as K. cbv beta in K.
      apply memb_In in Hc. rewrite Hc in K. discriminate.
    + inversion H as [|? ? Hy _]; subst. apply N. unfold NLETTERS. cbn in Hy |- *. tauto.
    + apply nuclei_letters in H. inversion H; subst. contradiction.
    + destruct (nuclei_head [] Hr) as (v & r' & Ev & _). discriminate.
  - subst u. pose proof (cmavo_text_tail _ _ _ H eq_refl) as F. apply Forall_app in F as [_ F]. inversion F; subst. contradiction.
Qed.

Lemma gismu_form_no_cmavo u P Q : gismu_form P Q u -> ~ cmavo_text u.
Proof.
  intros H K. destruct H as [(c1 & v1 & c2 & c3 & v2 & -> & _ & _ & H & _)|(c1 & c2 & v1 & c3 & v2 & -> & _ & _ & H & _)].
  - pose proof (cmavo_text_tail _ _ _ K eq_refl) as F. inversion F as [|? ? _ F1]; subst. inversion F1 as [|? ? F2 _]; subst.
    eapply cons_not_nletter; [|exact F2]. apply consonant_CONS. apply H.
  - pose proof (cmavo_text_tail _ _ _ K eq_refl) as F. inversion F as [|? ? _ F1]; subst. inversion F1 as [|? ? _ F2]; subst.
    inversion F2 as [|? ? F3 _]; subst. eapply cons_not_nletter; [|exact F3]. apply consonant_CONS, H.
Qed.

Lemma gismu_general u : plain u -> (general_class u = S_Gismu <-> gismu_form vowel_or_y lowercase_vowel u).
Proof.
  intros Hu. unfold general_class. split.
  - destruct (accepts_all N_cmevla u); [discriminate|]. destruct (accepts_all N_cmavo_minimal u); [discriminate|].
    destruct (accepts_all N_gismu u) eqn:E; [|destruct (accepts_all N_fuhivla u); [|destruct (accepts_all N_lujvo_minimal u)]; discriminate].
    intros _. apply gismu_exact; assumption.
  - intros H. destruct (accepts_all N_cmevla u) eqn:E1.
    { exfalso. apply cmevla_ends in E1 as (m & c & Em & Hc); [|exact Hu]. apply gismu_exact in H; [|exact Hu].
      apply gismu_ends in H as (m' & c' & Em' & Hc'); [|exact Hu]. rewrite Em in Em'. apply app_inj_tail in Em' as [_ ->].
      apply consonant_CONS in Hc. pose proof (char_sweep CONS (fun c => negb (memb (lower c) (lit "aeiou"))) c' eq_refl Hc) as K.
      cbv beta in K. apply memb_In in Hc'. rewrite Hc' in K. discriminate. }
    destruct (accepts_all N_cmavo_minimal u) eqn:E2.
    { exfalso. apply cmavo_minimal_exact in E2; [|exact Hu]. eapply gismu_form_no_cmavo; eassumption. }
    apply gismu_exact in H; [|exact Hu]. rewrite H. reflexivity.
Qed.

Lemma cmavo_general u : plain u -> (general_class u = S_UnknownCmavo <-> cmavo_text u).
Proof.
  intros Hu. unfold general_class. split.
  - destruct (accepts_all N_cmevla u); [discriminate|]. destruct (accepts_all N_cmavo_minimal u) eqn:E.
    + intros _. apply cmavo_minimal_exact; assumption.
    + destruct (accepts_all N_gismu u); [discriminate|].
      destruct (accepts_all N_fuhivla u); [discriminate|destruct (accepts_all N_lujvo_minimal u); discriminate].
  - intros H. destruct (accepts_all N_cmevla u) eqn:E1.
    { exfalso. apply cmevla_ends in E1; [|exact Hu]. eapply cmavo_text_last; eassumption. }
    apply cmavo_minimal_exact in H; [|exact Hu]. rewrite H. reflexivity.
Qed.

(** * The statements about [classify] *)
Lemma spelling_tail_letters t c r : letters t = c :: r -> cmavo_text (spelling t) -> Forall (fun d => In d NLETTERS) r.
Proof.
  intros E H. unfold spelling in H. rewrite E in H. cbn [map] in H.
  pose proof (cmavo_text_tail _ _ _ H eq_refl) as F. rewrite Forall_map in F. eapply Forall_impl; [|exact F].
  intros d. cbv beta. destruct (N.eqb_spec d 104) as [->|]; [intros _; vm_compute; tauto|auto].
Qed.

Lemma gismu_not_listed t P Q s e : gismu_form P Q (letters t) -> ~ listed (spelling t) s e.
Proof.
  intros H K. apply listed_form in K as [K|K].
  - destruct H as [(c1 & v1 & c2 & c3 & v2 & E & _ & _ & H & _)|(c1 & c2 & v1 & c3 & v2 & E & _ & _ & H & _)].
    + pose proof (spelling_tail_letters _ _ _ E K) as F. inversion F as [|? ? _ F1]; subst. inversion F1 as [|? ? F2 _]; subst.
      eapply cons_not_nletter; [|exact F2]. apply consonant_CONS. apply H.
    + pose proof (spelling_tail_letters _ _ _ E K) as F. inversion F as [|? ? _ F1]; subst. inversion F1 as [|? ? _ F2]; subst.
      inversion F2 as [|? ? F3 _]; subst. eapply cons_not_nletter; [|exact F3]. apply consonant_CONS, H.
  - assert (L : List.length (spelling t) = 5%nat).
    { unfold spelling. rewrite map_length. destruct H as [(c1 & v1 & c2 & c3 & v2 & E & _)|(c1 & c2 & v1 & c3 & v2 & E & _)]; rewrite E; reflexivity. }
    rewrite K in L. discriminate.
Qed.

Theorem classify_gismu w e : scalars (txt w) ->
  (classify w = Ret (S_Gismu, e) <->
   e = false /\ last (txt w) 0 <> 44 /\ gismu_form vowel_or_y lowercase_vowel (letters (txt w))).
Proof.
  intros Hs. rewrite (classify_general w S_Gismu e Hs) by (cbn; tauto). rewrite general_letters.
  rewrite <- ends_comma_last. destruct (ends_comma (txt w)); [split; [intros (H & _); discriminate H|intros (_ & H & _); discriminate H]|].
  pose proof (gismu_general (letters (txt w)) (letters_no_comma _)) as G. split.
  - intros (H & -> & _). split; [reflexivity|]. split; [reflexivity|]. apply G. auto.
  - intros (-> & _ & H). split; [symmetry; apply G, H|]. split; [reflexivity|]. left. intros s' e'. eapply gismu_not_listed, H.
Qed.

Theorem classify_unknown_cmavo w e : scalars (txt w) ->
  (classify w = Ret (S_UnknownCmavo, e) <->
   e = true /\ last (txt w) 0 <> 44 /\ cmavo_text (letters (txt w)) /\
   ((forall s' e', ~ listed (spelling (txt w)) s' e') \/ 16 < blen (spelling (txt w)))).
Proof.
  intros Hs. rewrite (classify_general w S_UnknownCmavo e Hs) by (cbn; tauto). rewrite general_letters.
  rewrite <- ends_comma_last. destruct (ends_comma (txt w)); [split; [intros (H & _); discriminate H|intros (_ & H & _); discriminate H]|].
  pose proof (cmavo_general (letters (txt w)) (letters_no_comma _)) as G. split.
  - intros (H & -> & HL). split; [reflexivity|]. split; [reflexivity|]. split; [apply G; auto|exact HL].
  - intros (-> & _ & H & HL). split; [symmetry; apply G, H|]. auto.
Qed.

Lemma classify_word w s e : classify w = Ret (s, e) -> scalars (txt w) -> In s WORD_CLASSES -> s <> S_AnyText -> s <> S_ZoiDelimiter ->
  ends_comma (txt w) = false /\ exists x, accepts_all x (letters (txt w)) = true /\
  In (s, x) [(S_Cmevla, N_cmevla); (S_UnknownCmavo, N_cmavo_minimal); (S_Gismu, N_gismu); (S_Fuhivla, N_fuhivla); (S_Lujvo, N_lujvo_minimal)].
Proof.
  intros H Hs Hc Hany Hz. apply (classify_general w s e Hs Hc) in H as (-> & _ & _). rewrite general_letters in *.
  destruct (ends_comma (txt w)); [congruence|]. split; [reflexivity|]. set (u := letters (txt w)) in *. clearbody u.
  unfold general_class in *.
  destruct (accepts_all N_cmevla u) eqn:E1; [exists N_cmevla; cbn; auto|].
  destruct (accepts_all N_cmavo_minimal u) eqn:E2; [exists N_cmavo_minimal; cbn; auto|].
  destruct (accepts_all N_gismu u) eqn:E3; [exists N_gismu; cbn; auto|].
  destruct (accepts_all N_fuhivla u) eqn:E4; [exists N_fuhivla; cbn; auto 10|].
  destruct (accepts_all N_lujvo_minimal u) eqn:E5; [exists N_lujvo_minimal; cbn; auto 10|congruence].
Qed.

Theorem classify_endings w s e : classify w = Ret (s, e) -> scalars (txt w) ->
  (s = S_Cmevla -> ends_with consonant_letter (txt w)) /\
  (In s [S_Gismu; S_Fuhivla; S_Lujvo] -> ends_with vowel_letter (txt w)).
Proof.
  intros H Hs.
  assert (T : ends_comma (txt w) = false -> forall P, ends_with P (letters (txt w)) -> ends_with P (txt w)).
  { intros He P (m & c & E & Hc). destruct (letters_split _ _ _ _ E) as (a & b & Et & _ & Hb & _).
    destruct b as [|d b] using rev_ind; [exists a, c; rewrite Et; auto|]. clear IHb. exfalso.
    rewrite Et in He. unfold ends_comma in He. rewrite app_comm_cons, app_assoc, last_last in He.
    rewrite letters_app, letters_one in Hb by exact He. destruct (letters b); discriminate. }
  pose proof (letters_no_comma (txt w)) as Hp.
  assert (G : In s [S_Cmevla; S_Gismu; S_Fuhivla; S_Lujvo] -> ends_comma (txt w) = false /\ exists x, accepts_all x (letters (txt w)) = true /\
    In (s, x) [(S_Cmevla, N_cmevla); (S_UnknownCmavo, N_cmavo_minimal); (S_Gismu, N_gismu); (S_Fuhivla, N_fuhivla); (S_Lujvo, N_lujvo_minimal)]).
  { intros Hin. apply (classify_word w s e H Hs); [cbn in Hin |- *; intuition auto| |]; intros ->; cbn in Hin; intuition discriminate. }
  split.
  - intros ->. destruct G as (He & x & Hx & Hin); [cbn; auto|]. apply T; [exact He|].
    cbn in Hin. destruct Hin as [E|[E|[E|[E|[E|[]]]]]]; try discriminate E. injection E as <-. apply cmevla_ends; assumption.
  - intros Hin0. destruct G as (He & x & Hx & Hin); [cbn in Hin0 |- *; tauto|]. apply T; [exact He|].
    cbn in Hin0. destruct Hin0 as [<-|[<-|[<-|[]]]]; cbn in Hin; destruct Hin as [E|[E|[E|[E|[E|[]]]]]]; try discriminate E; injection E as <-.
    + apply gismu_ends; assumption.
    + apply fuhivla_ends; [assumption|]. unfold accepts_all in Hx. destruct (ev (Call N_fuhivla) _) as [[|]|]; try discriminate. reflexivity.
    + apply lujvo_ends; assumption.
Qed.

Theorem classify_pairs w s e a x y b : classify w = Ret (s, e) -> scalars (txt w) ->
  In s [S_Cmevla; S_UnknownCmavo; S_Gismu; S_Fuhivla; S_Lujvo] ->
  letters (txt w) = a ++ x :: y :: b -> consonant_letter x -> consonant_letter y -> permissible x y.
Proof.
  intros H Hs Hin E. destruct (classify_word w s e H Hs) as (_ & n & Hx & _).
  - cbn in Hin |- *. tauto.
  - intros ->. cbn in Hin. intuition discriminate.
  - intros ->. cbn in Hin. intuition discriminate.
  - apply accepts_all_own in Hx. rewrite <- (letters_id (letters (txt w)) (letters_no_comma _)) in E. exact (own_pairs _ Hx a x y b E).
Qed.

Theorem classify_triples w s e a x y z b : classify w = Ret (s, e) -> scalars (txt w) ->
  In s [S_Cmevla; S_UnknownCmavo; S_Gismu; S_Fuhivla; S_Lujvo] ->
  letters (txt w) = a ++ x :: y :: z :: b -> ~ forbidden_triple x y z.
Proof.
  intros H Hs Hin E. destruct (classify_word w s e H Hs) as (_ & n & Hx & _).
  - cbn in Hin |- *. tauto.
  - intros ->. cbn in Hin. intuition discriminate.
  - intros ->. cbn in Hin. intuition discriminate.
  - apply accepts_all_own in Hx. rewrite <- (letters_id (letters (txt w)) (letters_no_comma _)) in E. exact (own_triples _ Hx a x y z b E).
Qed.

(** * Corollaries *)
Definition ap (c : char) : char := if c =? 104 then 39 else c.
Lemma ap_inv c d : ap c = d -> d <> 39 -> c = d.
Proof. unfold ap. destruct (N.eqb_spec c 104); intros <-; congruence. Qed.
Lemma ap_inv_apos c d : ap c = d -> apostrophe d -> apostrophe c.
Proof. unfold ap, apostrophe. destruct (N.eqb_spec c 104) as [->|]; intros <-; [intros _; vm_compute; tauto|auto]. Qed.
Lemma vowel_or_y_ne v : vowel_or_y v -> v <> 39.
Proof. intros H ->. vm_compute in H. intuition discriminate. Qed.

Lemma nucleus_ap u : nucleus (map ap u) -> nucleus u.
Proof.
  intros [(v & E & Hv)|(v & w & E & Hv)].
  - destruct u as [|c [|d u]]; try discriminate E. cbn [map] in E. injection E as E. apply ap_inv in E; [|apply vowel_or_y_ne, Hv].
    subst. left. eauto.
  - destruct u as [|c [|d [|f u]]]; try discriminate E. cbn [map] in E. injection E as E1 E2.
    assert (N : v <> 39 /\ w <> 39) by (split; intros ->; cbn in Hv; intuition discriminate).
    apply ap_inv in E1; [|apply N]. apply ap_inv in E2; [|apply N]. subst. right. eauto.
Qed.

Lemma nuclei_ap w : nuclei w -> forall u, map ap u = w -> nuclei u.
Proof.
  induction 1 as [n Hn|n h r Hn Hh Hr IH]; intros u E.
  - apply nuclei_one, nucleus_ap. rewrite E. exact Hn.
  - apply map_eq_app in E as (u1 & u2 & -> & E1 & E2). destruct u2 as [|k u2]; [discriminate E2|]. cbn [map] in E2. injection E2 as E2 E3.
    apply nuclei_more; [apply nucleus_ap; rewrite E1; exact Hn|eapply ap_inv_apos; eassumption|apply IH, E3].
Qed.

Lemma cmavo_text_ap u : cmavo_text (map ap u) -> cmavo_text u.
Proof.
  intros [(d & E & H)|[[N H]|[H|(c & r & E & H & Hc)]]].
  - destruct u as [|c [|? ?]]; try discriminate E. cbn [map] in E. injection E as E. left. exists c. split; [reflexivity|].
    apply ap_inv in E; [subst; exact H|intros ->; vm_compute in H; intuition discriminate].
  - right. left. split; [intros ->; apply N; reflexivity|]. rewrite Forall_map in H. eapply Forall_impl; [|exact H].
    intros c Hc. cbv beta in Hc. unfold ap in Hc. destruct (c =? 104); [vm_compute in Hc; intuition discriminate|exact Hc].
  - right. right. left. eapply nuclei_ap; [exact H|reflexivity].
  - destruct u as [|d u]; [discriminate E|]. cbn [map] in E. injection E as E1 E2. right. right. right. exists d, u.
    split; [reflexivity|]. split; [eapply nuclei_ap; eassumption|].
    assert (N : c <> 39) by (intros ->; destruct Hc as [Hc|Hc]; vm_compute in Hc; intuition discriminate).
    apply ap_inv in E1; [|exact N]. subst. exact Hc.
Qed.

Lemma general_class_cases t : In (general_class t) [S_Cmevla; S_UnknownCmavo; S_Gismu; S_Fuhivla; S_Lujvo; S_AnyText].
Proof.
  unfold general_class. destruct (accepts_all N_cmevla t); [cbn; tauto|]. destruct (accepts_all N_cmavo_minimal t); [cbn; tauto|].
  destruct (accepts_all N_gismu t); [cbn; tauto|]. destruct (accepts_all N_fuhivla t); [cbn; tauto|].
  destruct (accepts_all N_lujvo_minimal t); cbn; tauto.
Qed.

Lemma cmavo_class_form w s e : scalars (txt w) -> classify w = Ret (s, e) ->
  ~ In s [S_Cmevla; S_Gismu; S_Fuhivla; S_Lujvo; S_AnyText] ->
  cmavo_text (letters (txt w)) \/ spelling (txt w) = lit " vi'ei'e".
Proof.
  intros Hs H Hn. rewrite classify_spec in H by exact Hs. unfold class_of, entry in H.
  rewrite <- (spelling_spell (txt w)) in H.
  assert (D : (exists s' e', listed (spelling (txt w)) s' e') \/ s = general_class (txt w)).
  { revert H. generalize (general_class (txt w)) as g. intros g. destruct (blen (spelling (txt w)) <=? 16).
    - destruct (table_lookup table_arms (spelling (txt w))) as [[s' e']|] eqn:E.
      + intros _. left. apply lookup_listed in E. eauto.
      + intros [= <- _]. auto.
    - intros [= <- _]. auto. }
  destruct D as [(s' & e' & D)|D].
  - apply listed_form in D as [D|D]; [left; apply cmavo_text_ap, D|right; exact D].
  - left. pose proof (general_class_cases (txt w)) as G. rewrite <- D in G.
    assert (s = S_UnknownCmavo) as Es by (clear - G Hn; cbn in G, Hn; intuition congruence). rewrite Es in D.
    rewrite general_letters in D. destruct (ends_comma (txt w)); [clear - D; discriminate D|].
    apply cmavo_general; [apply letters_no_comma|auto].
Qed.

Lemma not_ends_comma t P : ends_comma t = false -> ends_with P (letters t) -> ends_with P t.
Proof.
  intros He (m & c & E & Hc). destruct (letters_split _ _ _ _ E) as (a & b & Et & _ & Hb & _).
  destruct b as [|d b] using rev_ind; [exists a, c; rewrite Et; auto|]. clear IHb. exfalso.
  rewrite Et in He. unfold ends_comma in He. rewrite app_comm_cons, app_assoc, last_last in He.
  rewrite letters_app, letters_one in Hb by exact He. destruct (letters b); discriminate.
Qed.

Lemma nletter d : In d NLETTERS -> vowel_or_y d \/ apostrophe d.
Proof.
  intros H. pose proof (char_sweep NLETTERS (fun d => memb (lower d) (lit "aeiouy") || memb d (lit "'h")) d eq_refl H) as K.
  cbv beta in K. apply orb_true_iff in K as [K|K]; apply memb_In in K; auto.
Qed.

Lemma nuclei_end w : nuclei w -> ends_with vowel_or_y w.
Proof.
  induction 1 as [n Hn|n h r Hn Hh Hr IH].
  - destruct Hn as [(v & -> & Hv)|(v & w & -> & Hv)]; [exists [], v; auto|]. exists [v], w. split; [reflexivity|].
    cbn in Hv. unfold vowel_or_y. destruct Hv as [E|[E|[E|[E|[]]]]]; injection E as _ E; unfold lower in *; rewrite <- E; vm_compute; tauto.
  - destruct IH as (m & c & -> & Hc). exists (n ++ h :: m), c. rewrite <- app_assoc. auto.
Qed.

Lemma unknown_cmavo_shape w e : classify w = Ret (S_UnknownCmavo, e) -> scalars (txt w) ->
  exists c r, letters (txt w) = c :: r /\
    (forall d, In d r -> vowel_or_y d \/ apostrophe d) /\
    ends_with (fun d => vowel_or_y d \/ digit_char d) (txt w).
Proof.
  intros H Hs. apply (classify_unknown_cmavo w e Hs) in H as (_ & He & H & _). apply ends_comma_last in He.
  assert (L : ends_with (fun d => vowel_or_y d \/ digit_char d) (letters (txt w))).
  { set (u := letters (txt w)) in *. clearbody u. destruct H as [(d & -> & Hd)|[[N H]|[H|(c & r & -> & H & _)]]].
    - exists [], d. auto.
    - destruct u as [|c u] using rev_ind; [congruence|]. exists u, c. split; [reflexivity|]. left.
      apply Forall_app in H as [_ H]. inversion H as [|? ? Hc _]; subst. cbn in Hc. unfold vowel_or_y.
      destruct Hc as [<-|[<-|[]]]; vm_compute; tauto.
    - apply nuclei_end in H as (m & c & E & Hc). exists m, c. auto.
    - apply nuclei_end in H as (m & d & E & Hd). exists (c :: m), d. subst. auto. }
  destruct (letters (txt w)) as [|c r] eqn:E; [destruct L as ([|? ?] & ? & L & _); discriminate|].
  exists c, r. split; [reflexivity|]. split.
  - pose proof (cmavo_text_tail _ _ _ H eq_refl) as F. rewrite Forall_forall in F. intros d Hd. apply nletter, F, Hd.
  - apply not_ends_comma; [exact He|]. rewrite E. exact L.
Qed.

Lemma cons_ne44 c : consonant_letter c -> c <> 44.
Proof. intros H ->. vm_compute in H. intuition discriminate. Qed.
Lemma vow_ne44 c : vowel_or_y c -> c <> 44.
Proof. intros H ->. vm_compute in H. intuition discriminate. Qed.
Lemma lv_ne44 c : lowercase_vowel c -> c <> 44.
Proof. intros H ->. vm_compute in H. intuition discriminate. Qed.
Lemma cons_not_vowel c : consonant_letter c -> vowel_or_y c -> False.
Proof.
  intros H K. apply consonant_CONS in H. pose proof (char_sweep CONS (fun c => negb (memb (lower c) (lit "aeiouy"))) c eq_refl H) as M.
  cbv beta in M. apply memb_In in K. rewrite K in M. discriminate.
Qed.
Lemma ascii_scalar c : c < 128 -> is_scalar c = true.
Proof. intros H. unfold is_scalar. destruct (N.ltb_spec c 55296); [reflexivity|lia]. Qed.
Lemma lower_ascii c l : Forall (fun d => d < 128) l -> In (lower c) l -> c < 128.
Proof.
  intros F H. rewrite Forall_forall in F. specialize (F _ H). unfold lower in F. destruct ((65 <=? c) && (c <=? 90)); lia.
Qed.

Lemma pair_decides c v x y u : consonant_letter c -> vowel_or_y v -> lowercase_vowel u -> consonant_letter x -> consonant_letter y ->
  (classify (mkstr 0 [c; v; x; y; u]) = Ret (S_Gismu, false) <-> permissible x y) /\
  (classify (mkstr 0 [x; y; v; c; u]) = Ret (S_Gismu, false) <-> initial_pair x y).
Proof.
  intros Hc Hv Hu Hx Hy.
  assert (C : forall c, consonant_letter c -> is_scalar c = true).
  { intros d Hd. apply ascii_scalar. eapply lower_ascii; [|exact Hd]. repeat constructor. }
  assert (V : is_scalar v = true).
  { apply ascii_scalar. eapply lower_ascii; [|exact Hv]. repeat constructor. }
  assert (U : is_scalar u = true).
  { apply ascii_scalar. cbn in Hu. repeat (destruct Hu as [<-|Hu]; [reflexivity|]). destruct Hu. }
  assert (E1 : letters [c; v; x; y; u] = [c; v; x; y; u]).
  { unfold letters. cbn [filter]. rewrite (proj2 (N.eqb_neq c 44)), (proj2 (N.eqb_neq v 44)), (proj2 (N.eqb_neq x 44)), (proj2 (N.eqb_neq y 44)), (proj2 (N.eqb_neq u 44));
      auto using cons_ne44, vow_ne44, lv_ne44. }
  assert (E2 : letters [x; y; v; c; u] = [x; y; v; c; u]).
  { unfold letters. cbn [filter]. rewrite (proj2 (N.eqb_neq c 44)), (proj2 (N.eqb_neq v 44)), (proj2 (N.eqb_neq x 44)), (proj2 (N.eqb_neq y 44)), (proj2 (N.eqb_neq u 44));
      auto using cons_ne44, vow_ne44, lv_ne44. }
  split; rewrite classify_gismu by (repeat constructor; auto); cbn [txt last]; rewrite ?E1, ?E2.
  - split.
    + intros (_ & _ & [(a1 & a2 & a3 & a4 & a5 & [= <- <- <- <- <-] & _ & _ & H & _)|(a1 & a2 & a3 & a4 & a5 & [= <- <- <- <- <-] & _ & H & _)]);
        [exact H|destruct (cons_not_vowel _ Hx H)].
    + intros H. split; [reflexivity|]. split; [apply lv_ne44, Hu|]. left. exists c, v, x, y, u. auto 10.
  - split.
    + intros (_ & _ & [(a1 & a2 & a3 & a4 & a5 & [= <- <- <- <- <-] & _ & H & _)|(a1 & a2 & a3 & a4 & a5 & [= <- <- <- <- <-] & H & _)]);
        [destruct (cons_not_vowel _ Hy H)|exact H].
    + intros H. split; [reflexivity|]. split; [apply lv_ne44, Hu|]. right. exists x, y, v, c, u. auto 10.
Qed.

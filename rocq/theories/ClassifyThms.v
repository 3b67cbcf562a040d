(** ClassifyThms.v -- lemmas for C14-C17 and C30. *)
From Verif Require Import Base Utf8 Peg Rules RulesApi PegMeta RulesTotal PegChars PegSim Selmaho ClassifyTable
  Classify ClassifyFacts SpecText SpecCmavo.
From Coq Require Import Lia Arith.

Lemma str_eqb_eq a : forall b, str_eqb a b = true <-> a = b.
Proof.
  induction a as [|x a IH]; intros [|y b]; cbn; try (split; congruence).
  rewrite andb_true_iff, N.eqb_eq, IH. split; [intros [-> ->]; reflexivity|intros [= -> ->]; auto].
Qed.

Lemma all_y_spec w : all_y w = true <-> exists n, w = repeat 121 (S n).
Proof.
  unfold all_y. split.
  - destruct w as [|c w]; [discriminate|]. intros H. exists (List.length w).
    change (S (List.length w)) with (List.length (c :: w)). rewrite forallb_forall in H.
    induction (c :: w) as [|x l IH]; [reflexivity|]. cbn [List.length repeat]. f_equal.
    + apply N.eqb_eq. apply H. left; reflexivity.
    + apply IH. intros; apply H; right; assumption.
  - intros (n & ->). cbn [repeat]. cbn [forallb]. rewrite N.eqb_refl. induction n; [reflexivity|]. cbn. exact IHn.
Qed.

Lemma lookup_listed w s e : table_lookup table_arms w = Some (s, e) -> listed w s e.
Proof.
  unfold listed. generalize table_arms as arms. induction arms as [|[[p s'] e'] arms IH]; cbn [table_lookup]; [discriminate|].
  destruct (pat_matches p w) eqn:E.
  - intros [= -> ->]. destruct p as [l|]; cbn in E.
    + left. apply existsb_exists in E as (x & Hx & Hw). apply str_eqb_eq in Hw.
      exists l, x. split; [left; reflexivity|]. auto.
    + right. split; [left; reflexivity|]. apply all_y_spec. exact E.
  - intros H. apply IH in H as [(l & x & H1 & H2)|(H1 & H2)]; [left; exists l, x; split; [right; exact H1|exact H2]|].
    right. split; [right; exact H1|exact H2].
Qed.

Definition sel_idx (s : Selmaho) : string := as_repr s.
Definition entry_eqb (a : option (Selmaho * bool)) (s : Selmaho) (e : bool) : bool :=
  match a with Some (s', e') => String.eqb (as_repr s') (as_repr s) && Bool.eqb e' e | None => false end.

Definition sel_of_repr (r : string) : option Selmaho :=
  find (fun s => String.eqb (as_repr s) r) all_selmaho.

Lemma sel_of_as_repr s : sel_of_repr (as_repr s) = Some s.
Proof. destruct s; vm_compute; reflexivity. Qed.

Lemma as_repr_inj s s' : as_repr s = as_repr s' -> s = s'.
Proof. intros E. apply (f_equal sel_of_repr) in E. rewrite !sel_of_as_repr in E. congruence. Qed.

Lemma entry_eqb_eq a s e : entry_eqb a s e = true -> a = Some (s, e).
Proof.
  unfold entry_eqb. destruct a as [[s' e']|]; [|discriminate].
  intros K. apply andb_true_iff in K as [K1 K2]. apply String.eqb_eq in K1. apply Bool.eqb_prop in K2.
  apply as_repr_inj in K1. congruence.
Qed.

Definition arm_consistent (arms : list (pat * Selmaho * bool)) (a : pat * Selmaho * bool) : bool :=
  let '(p, s, e) := a in
  match p with
  | Lits l => forallb (fun x => entry_eqb (table_lookup arms (lit x)) s e) l
  | AllY => entry_eqb (table_lookup arms [121]) s e
  end.

Lemma table_consistent_ok : forallb (arm_consistent table_arms) table_arms = true.
Proof. vm_compute. reflexivity. Qed.

Definition no_y_lits (arms : list (pat * Selmaho * bool)) : bool :=
  forallb (fun '(p, s, e) => match p with Lits l => forallb (fun x => negb (all_y (lit x))) l | AllY => true end) arms.

Lemma no_y_lits_ok : no_y_lits table_arms = true.
Proof. vm_compute. reflexivity. Qed.

Lemma lookup_y w : all_y w = true -> table_lookup table_arms w = table_lookup table_arms [121].
Proof.
  intros H. pose proof no_y_lits_ok as K. unfold no_y_lits in K. revert K. generalize table_arms as arms.
  induction arms as [|[[p s] e] arms IH]; intros K; [reflexivity|]. cbn [forallb] in K.
  apply andb_true_iff in K as [K1 K2]. cbn [table_lookup]. rewrite (IH K2).
  destruct p as [l|].
  - assert (N1 : forall w, all_y w = true -> pat_matches (Lits l) w = false).
    { intros u Hu. cbn. destruct (existsb _ l) eqn:E; [|reflexivity]. apply existsb_exists in E as (x & Hx & Ex).
      apply str_eqb_eq in Ex. rewrite forallb_forall in K1. specialize (K1 x Hx). rewrite Ex, Hu in K1. discriminate. }
    rewrite (N1 w H), (N1 [121] eq_refl). reflexivity.
  - cbn [pat_matches]. rewrite H. reflexivity.
Qed.

Lemma arm_lits arms l s e x : forallb (arm_consistent arms) arms = true -> In (Lits l, s, e) arms -> In x l ->
  table_lookup arms (lit x) = Some (s, e).
Proof.
  intros K H Hx. rewrite forallb_forall in K. specialize (K _ H). cbn [arm_consistent] in K.
  rewrite forallb_forall in K. apply entry_eqb_eq, K, Hx.
Qed.

Lemma arm_y arms s e : forallb (arm_consistent arms) arms = true -> In (AllY, s, e) arms ->
  table_lookup arms [121] = Some (s, e).
Proof.
  intros K H. rewrite forallb_forall in K. specialize (K _ H). apply entry_eqb_eq, K.
Qed.

Lemma listed_lookup w s e : listed w s e -> table_lookup table_arms w = Some (s, e).
Proof.
  intros [(l & x & H1 & H2 & ->)|(H1 & Hn)].
  - exact (arm_lits table_arms l s e x table_consistent_ok H1 H2).
  - rewrite lookup_y by (apply all_y_spec; exact Hn). exact (arm_y table_arms s e table_consistent_ok H1).
Qed.

Lemma listed_unique w s e s' e' : listed w s e -> listed w s' e' -> s = s' /\ e = e'.
Proof. intros H H'. apply listed_lookup in H. apply listed_lookup in H'. split; congruence. Qed.

Lemma spelling_spell t : spelling t = spell t.
Proof. reflexivity. Qed.

(** listed cmavo are ASCII *)
Lemma lit_ascii x : Forall (fun c => c < 256) (lit x).
Proof. induction x; constructor; [apply N_ascii_bounded|exact IHx]. Qed.

Lemma spelling_scalars t : scalars (spelling t) -> scalars t.
Proof.
  unfold scalars, spelling, letters. induction t as [|c t IH]; [constructor|]. cbn [filter].
  destruct (N.eqb_spec c 44) as [->|E]; cbn [negb map]; intros H.
  - constructor; [reflexivity|exact (IH H)].
  - inversion H; subst. constructor; [|auto]. destruct (N.eqb_spec c 104) as [->|]; [reflexivity|assumption].
Qed.

Lemma listed_scalars w s e : listed w s e -> scalars w.
Proof.
  intros [(l & x & _ & _ & ->)|(_ & n & ->)].
  - eapply Forall_impl; [|apply lit_ascii]. cbn. intros c Hc. unfold is_scalar. apply orb_true_iff. left. apply N.ltb_lt. lia.
  - apply Forall_forall. intros c Hc. apply repeat_spec in Hc. subst. reflexivity.
Qed.

Lemma classify_known w s e : listed (spelling (txt w)) s e -> blen (spelling (txt w)) <= 16 ->
  classify w = Ret (s, is_fundamentally_experimental s || e).
Proof.
  intros H Hl. assert (Hs : scalars (txt w)) by (apply spelling_scalars; eapply listed_scalars; exact H).
  rewrite classify_spec by exact Hs. unfold class_of, entry. rewrite spelling_spell in *.
  apply N.leb_le in Hl. rewrite Hl. rewrite (listed_lookup _ _ _ H). reflexivity.
Qed.

(** what a [Ret] of classify says, without assuming scalar values *)
Lemma classify_ret w s e : classify w = Ret (s, e) ->
  (exists w' e', listed w' s e' /\ e = is_fundamentally_experimental s || e') \/
  (s = general_class (txt w) /\ e = is_fundamentally_experimental s).
Proof.
  unfold classify. destruct (transform_for_direct_cmavo_check (txt w) (repeat 0 16)) as [[k|]| |]; cbn [obind]; try discriminate.
  - destruct (table_lookup table_arms k) as [[s' e']|] eqn:E; cbn [obind].
    + intros [= -> <-]. left. exists k, e'. split; [apply lookup_listed; exact E|reflexivity].
    + rewrite classify_generally_spec. cbn [obind]. rewrite orb_false_r. intros [= <- <-]. right. auto.
  - rewrite classify_generally_spec. cbn [obind]. rewrite orb_false_r. intros [= <- <-]. right. auto.
Qed.

Definition general_classes : list Selmaho := [S_Cmevla; S_UnknownCmavo; S_Gismu; S_Fuhivla; S_Lujvo; S_AnyText].

Lemma general_class_in t : In (general_class t) general_classes.
Proof.
  unfold general_class, general_classes.
  repeat match goal with |- context [if ?b then _ else _] => destruct b end; cbn; tauto.
Qed.

Lemma listed_not_general w s e : listed w s e -> ~ In s (S_ZoiDelimiter :: general_classes).
Proof.
  intros H. apply listed_lookup in H.
  assert (K : forallb (fun '(p, s, e) => negb (existsb (fun s' => String.eqb (as_repr s) (as_repr s')) (S_ZoiDelimiter :: general_classes))) table_arms = true)
    by (vm_compute; reflexivity).
  assert (G : forall arms, forallb (fun '(p, s, e) => negb (existsb (fun s' => String.eqb (as_repr s) (as_repr s')) (S_ZoiDelimiter :: general_classes))) arms = true ->
     table_lookup arms w = Some (s, e) -> ~ In s (S_ZoiDelimiter :: general_classes)).
  { induction arms as [|[[p s'] e'] arms IH]; [discriminate|]. intros K'. change (forallb ?f (?a :: ?l)) with (f a && forallb f l) in K'.
    apply andb_true_iff in K' as [K1 K2].
    cbn [table_lookup]. destruct (pat_matches p w); [|apply IH; exact K2]. intros [= -> ->] Hin.
    apply negb_true_iff in K1. assert (X : existsb (fun s' => String.eqb (as_repr s) (as_repr s')) (S_ZoiDelimiter :: general_classes) = true); [|congruence].
    apply existsb_exists. exists s. split; [exact Hin|apply String.eqb_refl]. }
  exact (G _ K H).
Qed.

Lemma classify_unknown w s e : classify w = Ret (s, e) -> scalars (txt w) ->
  ((forall s' e', ~ listed (spelling (txt w)) s' e') \/ 16 < blen (spelling (txt w))) ->
  In s general_classes.
Proof.
  intros H Hs Hn. rewrite classify_spec in H by exact Hs. injection H as H. unfold class_of, entry in H.
  rewrite spelling_spell in *. destruct Hn as [Hn|Hn].
  - destruct (blen (spell (txt w)) <=? 16).
    + destruct (table_lookup table_arms (spell (txt w))) as [[s' e']|] eqn:E.
      * exfalso. apply (Hn s' e'). apply lookup_listed. exact E.
      * injection H as <- _. apply general_class_in.
    + injection H as <- _. apply general_class_in.
  - apply N.leb_gt in Hn. rewrite Hn in H. injection H as <- _. apply general_class_in.
Qed.

Lemma experimental_spec s : is_fundamentally_experimental s = true <-> experimental_selmaho s.
Proof.
  unfold experimental_selmaho, is_word_class.
  assert (D : is_fundamentally_experimental s = negb (existsb (String.eqb (as_repr s)) cll_selmaho)
     && negb (existsb (fun s' => String.eqb (as_repr s) (as_repr s')) [S_Gismu; S_Fuhivla; S_Lujvo; S_Cmevla; S_AnyText; S_ZoiDelimiter])).
  { destruct s; vm_compute; reflexivity. }
  rewrite D, andb_true_iff, !negb_true_iff. split; intros [H1 H2]; split.
  - intros Hin. assert (X : existsb (String.eqb (as_repr s)) cll_selmaho = true); [|congruence].
    apply existsb_exists. eexists; split; [exact Hin|apply String.eqb_refl].
  - intros Hin. assert (X : existsb (fun s' => String.eqb (as_repr s) (as_repr s')) [S_Gismu; S_Fuhivla; S_Lujvo; S_Cmevla; S_AnyText; S_ZoiDelimiter] = true); [|congruence].
    apply existsb_exists. eexists; split; [exact Hin|apply String.eqb_refl].
  - destruct (existsb _ cll_selmaho) eqn:E; [|reflexivity]. apply existsb_exists in E as (x & Hx & Ex).
    apply String.eqb_eq in Ex. subst x. contradiction.
  - destruct (existsb _ [S_Gismu; _; _; _; _; _]) eqn:E; [|reflexivity]. apply existsb_exists in E as (x & Hx & Ex).
    apply String.eqb_eq in Ex. apply as_repr_inj in Ex. subst x. contradiction.
Qed.

Lemma classify_flag w s e : classify w = Ret (s, e) -> scalars (txt w) ->
  (e = true <-> experimental_selmaho s \/
                (listed (spelling (txt w)) s true /\ blen (spelling (txt w)) <= 16)).
Proof.
  intros H Hs. rewrite classify_spec in H by exact Hs. injection H as H. unfold class_of, entry in H.
  rewrite spelling_spell in *. rewrite <- experimental_spec.
  destruct (N.leb_spec (blen (spell (txt w))) 16).
  - destruct (table_lookup table_arms (spell (txt w))) as [[s' e']|] eqn:E.
    + injection H as -> <-. rewrite orb_true_iff. apply lookup_listed in E. split.
      * intros [H|H]; [left; exact H|right; subst; auto].
      * intros [H|[H _]]; [left; exact H|right]. eapply listed_unique; eassumption.
    + injection H as <- <-. split; [intros ->; left; reflexivity|].
      intros [H|[H _]]; [exact H|]. apply listed_lookup in H. congruence.
  - injection H as <- <-. split; [intros ->; left; reflexivity|]. intros [H|[_ H]]; [exact H|lia].
Qed.

Lemma classify_flag_words w s e : classify w = Ret (s, e) ->
  In s [S_Gismu; S_Fuhivla; S_Lujvo; S_Cmevla; S_AnyText] -> e = false.
Proof.
  intros H Hin. apply classify_ret in H as [(w' & e' & H & _)|[_ ->]].
  - exfalso. apply (listed_not_general _ _ _ H). cbn in *. intuition.
  - cbn in Hin. repeat (destruct Hin as [<-|Hin]; [reflexivity|]). destruct Hin.
Qed.

Lemma classify_no_delim w s e : classify w = Ret (s, e) -> s <> S_ZoiDelimiter.
Proof.
  intros H ->. apply classify_ret in H as [(w' & e' & H & _)|[H _]].
  - apply (listed_not_general _ _ _ H). left; reflexivity.
  - pose proof (general_class_in (txt w)) as G. rewrite <- H in G. cbn in G. intuition discriminate.
Qed.

Lemma accepts_all_chars x t : accepts_all x t = true -> Forall lojban_char t.
Proof.
  unfold accepts_all. destruct (ev (Call x) t) as [[|]|] eqn:E; try discriminate. intros _.
  assert (K : forall c, is_comma c = true \/ mem_char c LOJBAN = true -> lojban_char c).
  { intros c [H|H].
    - apply N.eqb_eq in H. subst. unfold lojban_char. apply mem_char_In. reflexivity.
    - apply mem_char_In in H. unfold lojban_char.
      assert (I : forallb (fun c => mem_char c (lit "abcdefgijklmnoprstuvxyzABCDEFGIJKLMNOPRSTUVXYZ0123456789'h,")) LOJBAN = true)
        by (vm_compute; reflexivity).
      rewrite forallb_forall in I. apply mem_char_In, I, H. }
  apply ev_eats in E as [->|(m & c & -> & Hc & HcA & Hm)]; [constructor|].
  apply Forall_app. split; [eapply Forall_impl; [|exact Hm]; exact K|].
  constructor; [apply K; right; exact HcA|constructor].
Qed.

Lemma classify_chars w s e : classify w = Ret (s, e) ->
  In s [S_Cmevla; S_Gismu; S_Lujvo; S_Fuhivla; S_UnknownCmavo] -> Forall lojban_char (txt w).
Proof.
  intros H Hin. apply classify_ret in H as [(w' & e' & H & _)|[H _]].
  - exfalso. apply (listed_not_general _ _ _ H). cbn in *. intuition.
  - unfold general_class in H.
    repeat match type of H with context [if accepts_all ?x ?t then _ else _] =>
      let E := fresh "E" in destruct (accepts_all x t) eqn:E; [apply accepts_all_chars in E; exact E|] end.
    subst s. cbn in Hin. intuition discriminate.
Qed.

Lemma classify_total w : scalars (txt w) -> exists s e, classify w = Ret (s, e).
Proof. intros H. rewrite classify_spec by exact H. destruct (class_of (txt w)) as [s e]. eauto. Qed.

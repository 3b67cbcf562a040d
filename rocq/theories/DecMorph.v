(** DecMorph.v -- which words decomposition cuts from a chunk. *)
From Verif Require Import Base Utf8 Span Peg Rules RulesApi PegMeta RulesTotal PegChars PegSim SymPeg Decompose DecomposeSpec DecomposeFacts
  DecomposeMachine DecomposeThms DecomposeSuffix DecomposeSim SpecText SpecMorph MorphFacts MorphCons MorphCmavo MorphGismu MorphThms.
From Coq Require Import Lia Arith.

(** * A cmavo at the front of a text *)
Lemma shape_letters n e qs u r : shape_in n e qs = true -> wfe e = true -> ev e u = Some r ->
  exists m q, u = m ++ r /\ In q qs /\ has q (letters m).
Proof.
  unfold shape_in. destruct (shapes n e) as [ps|] eqn:E; [|discriminate]. intros H Hw Hr.
  destruct (shapes_sound n e ps u r E Hw Hr) as (m & -> & p & Hp & Hh).
  rewrite forallb_forall in H. specialize (H p Hp). apply existsb_exists in H as (q & Hq & Hs).
  exists m, q. split; [reflexivity|]. split; [exact Hq|]. eapply psub_has; eassumption.
Qed.

Lemma has1 K u : has [K] u -> exists c, u = [c] /\ In c K.
Proof. intros H. inversion H as [|? c ? m' [Hc _] Hm']; subst. inversion Hm'; subst. eauto. Qed.

Lemma ys_prefix k : forall u m r, (List.length u <= k)%nat -> ev (Repeat m (Call N_y)) u = Some r ->
  exists w, u = w ++ r /\ Forall (fun c => In c (lit "yY")) (letters w) /\ (m <> O -> letters w <> []).
Proof.
  induction k as [|k IH]; intros u m r Hk H; rewrite ev_Repeat in H by reflexivity;
    destruct (ev (Call N_y) u) as [v|] eqn:E.
  - apply ev_nonnull in E; [lia|reflexivity].
  - destruct m; [|discriminate]. injection H as ->. exists []. repeat split; [constructor|congruence].
  - assert (Hl : (List.length v < List.length u)%nat) by (eapply ev_nonnull; [|exact E]; reflexivity).
    destruct (shape_letters 12 (Call N_y) [[lit "yY"]] u v) as (w & q & -> & [<-|[]] & Hm); auto.
    apply has1 in Hm as (c & Ec & Hc).
    destruct (IH v _ r ltac:(lia) H) as (w' & -> & Hw & _). exists (w ++ w').
    rewrite <- app_assoc. split; [reflexivity|]. rewrite letters_app, Ec. split; [constructor; assumption|discriminate].
  - destruct m; [|discriminate]. injection H as ->. exists []. repeat split; [constructor|congruence].
Qed.

Lemma nucleus_prefix u r : ev (Call N_nucleus) u = Some r -> exists n, u = n ++ r /\ nucleus (letters n).
Proof.
  intros H. destruct (shape_letters 12 (Call N_nucleus) NUC u r) as (m & q & -> & Hq & Hm); auto.
  exists m. split; [reflexivity|]. apply nucleus_has. exists q. auto.
Qed.

Lemma h_prefix u r : ev (Call N_h) u = Some r -> exists m h, u = m ++ r /\ letters m = [h] /\ apostrophe h.
Proof.
  intros H. destruct (shape_letters 12 (Call N_h) [[APOS]] u r) as (m & q & -> & [<-|[]] & Hm); auto.
  apply has1 in Hm as (c & Ec & Hc). exists m, c. auto.
Qed.

Lemma NHs_prefix k : forall u r, (List.length u <= k)%nat -> ev (Repeat 0 NH) u = Some r ->
  exists m, u = m ++ r /\ forall n, nuclei n -> nuclei (letters m ++ n).
Proof.
  induction k as [|k IH]; intros u r Hk H; rewrite ev_Repeat in H by reflexivity.
  - destruct (ev NH u) as [v|] eqn:E; [|injection H as <-; exists []; auto].
    apply ev_nonnull in E; [lia|reflexivity].
  - destruct (ev NH u) as [v|] eqn:E; [|injection H as <-; exists []; auto]. cbn [Nat.pred] in H.
    assert (Hl : (List.length v < List.length u)%nat) by (eapply ev_nonnull; [|exact E]; reflexivity).
    unfold NH, CallC in E. rewrite ev_Seq in E by reflexivity. destruct (ev (Call N_nucleus) u) as [w|] eqn:E1; [|discriminate].
    cbn [evs] in E. destruct (ev (Call N_h) w) as [w'|] eqn:E2; [|discriminate]. injection E as <-.
    apply nucleus_prefix in E1 as (n & -> & Hn). apply h_prefix in E2 as (m & h & -> & Eh & Hh).
    destruct (IH w' r ltac:(lia) H) as (m' & -> & Hm'). exists (n ++ m ++ m'). rewrite <- !app_assoc. split; [reflexivity|].
    intros n' Hn'. rewrite !letters_app, Eh, <- !app_assoc. cbn [app]. apply nuclei_more; auto.
Qed.

Lemma consonant_at a c x v : Forall (fun c => is_comma c = true) a -> is_comma c = false -> cons_nt c = Some x -> accepts x (c :: v) = true ->
  ev (Call N_consonant) (a ++ c :: v) = Some v.
Proof.
  intros Ha Hcc Hc Hx.
  assert (K : fires 5 (Call N_consonant) x = true).
  { pose proof (assoc_in _ _ _ Hc) as I. assert (K : forallb (fun d => fires 5 (Call N_consonant) (snd d)) LETTERS = true) by (vm_compute; reflexivity).
    rewrite forallb_forall in K. exact (K _ I). }
  assert (Hx' : accepts x (a ++ c :: v) = true).
  { unfold accepts in *. rewrite (ev_cons_commas x a (c :: v)); [exact Hx|eapply cons_nt_is, Hc|exact Ha]. }
  destruct (fires_sound 5 _ x _ K (wfe_call _) Hx') as (r & Hr).
  destruct (single_next 9 (Call N_consonant) _ _ eq_refl (wfe_call _) Hr) as (d & Hd).
  rewrite next_char_comma in Hd by exact Ha. cbn [next_char] in Hd. rewrite Hcc in Hd. injection Hd as <- <-. exact Hr.
Qed.

Lemma own_cluster_letters m r c d u : own m r -> letters m = c :: d :: u -> In c CONS -> In d CONS ->
  exists r', ev (Call N_cluster) (m ++ r) = Some r'.
Proof.
  intros Ho El Hc Hd. destruct (letters_head m c (d :: u) El) as (a & b & -> & Ha & Eb & Hcc).
  destruct (letters_head b d u Eb) as (a' & b' & -> & Ha' & _ & Hdd).
  apply cons_nt_CONS in Hc as (x & Hx). apply cons_nt_CONS in Hd as (y & Hy).
  pose proof (Ho a c (a' ++ d :: b') x eq_refl Hx) as Ax.
  pose proof (Ho (a ++ c :: a') d b' y ltac:(rewrite <- app_assoc; reflexivity) Hy) as Ay.
  rewrite ev_Call. change (rule N_cluster) with (Repeat 2 (Call N_consonant)).
  rewrite <- app_assoc. cbn [app] in *. rewrite <- app_assoc in *. cbn [app] in *.
  rewrite ev_Repeat by reflexivity. rewrite (consonant_at a c x _ Ha Hcc Hx Ax). cbn [Nat.pred].
  rewrite ev_Repeat by reflexivity. rewrite (consonant_at a' d y _ Ha' Hdd Hy Ay). cbn [Nat.pred].
  apply ev_rep_some. reflexivity.
Qed.

Lemma onset_prefix u r : ev (Call N_h) u = None -> ev (Call N_cluster) u = None -> ev (Call N_onset) u = Some r ->
  exists m, u = m ++ r /\ (letters m = [] \/ exists c, letters m = [c] /\ (consonant_letter c \/ In (lower c) (lit "iu"))).
Proof.
  intros Hh Hcl. rewrite ev_Call. change (rule N_onset) with (Or [Call N_h; Call N_glide; Call N_initial]).
  rewrite ev_Or by reflexivity. cbn [evor]. rewrite Hh. destruct (ev (Call N_glide) u) as [r1|] eqn:Eg.
  - intros [= <-]. destruct (shape_letters 12 (Call N_glide) [[lit "iIuU"]] u r1) as (m & q & -> & [<-|[]] & Hm); auto.
    apply has1 in Hm as (c & Ec & Hc). exists m. split; [reflexivity|]. right. exists c. split; [exact Ec|]. right.
    apply memb_In. apply (char_sweep (lit "iIuU") (fun c => memb (lower c) (lit "iu"))); [reflexivity|exact Hc].
  - destruct (ev (Call N_initial) u) as [r1|] eqn:Ei; [|discriminate]. intros [= <-].
    destruct (shape_letters 20 (Call N_initial) INIT_SHAPES u r1) as (m & q & -> & Hq & Hm); auto.
    destruct (ev_own _ _ _ Ei) as (m' & E & Ho). apply app_inv_tail in E. subst m'.
    exists m. split; [reflexivity|]. remember (letters m) as l eqn:El.
    destruct Hm as [|K c q' l [Hc _] Hm]; [left; reflexivity|]. right. exists c.
    assert (HK : K = CONS) by (unfold INIT_SHAPES in Hq; cbn [In] in Hq; intuition congruence). subst K.
    destruct Hm as [|K d q' l [Hd _] Hm]; [split; [reflexivity|]; left; apply consonant_CONS, Hc|]. exfalso.
    assert (HK : K = CONS) by (unfold INIT_SHAPES in Hq; cbn [In] in Hq; intuition congruence). subst K.
    destruct (own_cluster_letters m r1 c d l Ho (eq_sym El) Hc Hd) as (r' & Hr'). congruence.
Qed.

Lemma cmavo_form_prefix u r : ev (Call N_cmavo_form) u = Some r -> exists m, u = m ++ r /\ cmavo_text (letters m).
Proof.
  intros E. rewrite ev_Call, rule_cmavo_form, ev_Longest in E by reflexivity.
  apply evlong_in in E as [E|(e & He & E)]; [discriminate|]. cbn [In] in He. destruct He as [<-|[<-|[<-|[]]]].
  - destruct (shape_letters 12 (Call N_digit) [[lit "0123456789"]] u r) as (m & q & -> & [<-|[]] & Hm); auto.
    apply has1 in Hm as (c & Ec & Hc). exists m. split; [reflexivity|]. left. exists c. auto.
  - destruct (ys_prefix (List.length u) u 1 r (Nat.le_refl _) E) as (w & -> & Hw & Hn).
    exists w. split; [reflexivity|]. right. left. split; [apply Hn; discriminate|exact Hw].
  - unfold CF3, CallC in E. rewrite ev_Seq in E by reflexivity. rewrite ev_Not in E by reflexivity.
    destruct (ev (Call N_h) u) eqn:Eh; [discriminate|]. cbn [evs] in E. rewrite ev_Not in E by reflexivity.
    destruct (ev (Call N_cluster) u) eqn:Ec; [discriminate|]. destruct (ev (Call N_onset) u) as [r1|] eqn:Eo; [|discriminate].
    destruct (ev (Repeat 0 NH) r1) as [r2|] eqn:En; [|discriminate].
    assert (Hor : ev (Call N_nucleus) r2 = Some r).
    { rewrite ev_Or in E by reflexivity. cbn [evor] in E. rewrite !ev_Seq in E by reflexivity. cbn [evs] in E.
      rewrite ev_Not in E by reflexivity. destruct (ev (Call N_stressed) r2) as [z|].
      - destruct (ev (Call N_nucleus) r2) as [z'|]; [|discriminate]. rewrite ev_Not in E by reflexivity.
        destruct (ev (Call N_cluster) z'); [discriminate|]. exact E.
      - destruct (ev (Call N_nucleus) r2) as [z'|]; [|discriminate]. exact E. }
    destruct (onset_prefix u r1 Eh Ec Eo) as (m & -> & Hm).
    destruct (NHs_prefix (List.length r1) r1 r2 (Nat.le_refl _) En) as (m' & -> & Hm').
    destruct (nucleus_prefix r2 r Hor) as (n & -> & Hn).
    exists (m ++ m' ++ n). rewrite <- !app_assoc. split; [reflexivity|]. rewrite !letters_app.
    specialize (Hm' _ (nuclei_one _ Hn)). right. right. destruct Hm as [->|(c & -> & Hc)]; [left; exact Hm'|].
    right. exists c, (letters m' ++ letters n). auto.
Qed.

Lemma ev_cmavo_minimal u : ev (Call N_cmavo_minimal) u =
  match ev (Call N_cvcy_lujvo) u with Some _ => None | None => ev (Call N_cmavo_form) u end.
Proof.
  rewrite ev_Call. change (rule N_cmavo_minimal) with (NotThen (Call N_cvcy_lujvo) (Call N_cmavo_form)).
  rewrite ev_NotThen by reflexivity. reflexivity.
Qed.

Lemma cmavo_prefix u r : ev (Call N_cmavo_minimal) u = Some r -> exists m, u = m ++ r /\ cmavo_text (letters m).
Proof.
  intros H. rewrite ev_cmavo_minimal in H. destruct (ev (Call N_cvcy_lujvo) u); [discriminate|]. apply cmavo_form_prefix; assumption.
Qed.

(** * Rules that need a char of a class *)
Section Need.
Context (K : list char).

(** no char of the text is in [K] *)
Definition lacks (t : list char) : Prop := Forall (fun c => ~ In c K) t.

Fixpoint needs (n : nat) (e : pexp nt) : bool :=
  match n with
  | O => false
  | S n => match e with
           | One chs => forallb (fun c => memb c K) chs
           | Peek e => needs n e
           | Or es | Longest es => forallb (needs n) es
           | Seq e es => existsb (needs n) (e :: es)
           | Repeat (S _) e => needs n e
           | AndPeek e q => needs n e || needs n q
           | AndNot e _ => needs n e
           | NotThen _ e => needs n e
           | Call x => needs n (rule x)
           | _ => false
           end
  end.

Lemma lacks_suffix e t r : lacks t -> ev e t = Some r -> lacks r.
Proof. intros H E. apply ev_suffix in E as (m & ->). apply Forall_app in H. apply H. Qed.

Lemma needs_sound n : forall e t, needs n e = true -> wfe e = true -> lacks t -> ev e t = None.
Proof.
  induction n as [|n IH]; intros e t; [discriminate|]. cbn [needs]. intros H Hw Ht.
  destruct e as [chs| | |e|e|es|es|e es|m e|e q|e q|q e|x]; try discriminate.
  - rewrite ev_One. destruct (next_char t) as [[c u]|] eqn:E; [|reflexivity]. destruct (mem_char c chs) eqn:M; [|reflexivity].
    exfalso. apply next_char_split in E as (m & -> & _). apply Forall_app in Ht as [_ Ht]. inversion Ht as [|? ? Hc _]; subst.
    apply Hc. apply mem_char_In in M. apply memb_In. exact (forallb_in _ _ _ H M).
  - rewrite ev_Peek by exact Hw. apply wfe_inv in Hw. rewrite (IH e t H Hw Ht). reflexivity.
  - rewrite ev_Or by exact Hw. apply wfe_inv in Hw. destruct (evor es t) as [r|] eqn:E; [|reflexivity].
    apply evor_in in E as (e & He & E). rewrite (IH e t) in E; [discriminate|eapply forallb_in; eassumption|eapply forallb_in; eassumption|exact Ht].
  - rewrite ev_Longest by exact Hw. apply wfe_inv in Hw. destruct (evlong es t None) as [r|] eqn:E; [|reflexivity].
    apply evlong_in in E as [E|(e & He & E)]; [discriminate|].
    rewrite (IH e t) in E; [discriminate|eapply forallb_in; eassumption|eapply forallb_in; eassumption|exact Ht].
  - rewrite ev_Seq by exact Hw. apply wfe_inv in Hw as [Hw Hws]. cbn [existsb] in H. apply orb_true_iff in H as [H|H].
    + rewrite (IH e t H Hw Ht). reflexivity.
    + destruct (ev e t) as [r|] eqn:E; [|reflexivity]. pose proof (lacks_suffix _ _ _ Ht E) as Hr. clear E Ht t.
      revert r Hr. induction es as [|a es IHes]; intros r Hr; [discriminate|]. cbn [existsb] in H. cbn [forallb] in Hws. apply andb_true_iff in Hws as [Ha Hws].
      cbn [evs]. apply orb_true_iff in H as [H|H].
      * rewrite (IH a r H Ha Hr). reflexivity.
      * destruct (ev a r) as [r'|] eqn:E; [|reflexivity]. apply IHes; [exact H|exact Hws|eapply lacks_suffix; eassumption].
  - destruct m as [|m]; [discriminate|]. rewrite ev_Repeat by exact Hw. apply wfe_inv in Hw as [_ Hw]. rewrite (IH e t H Hw Ht). reflexivity.
  - rewrite ev_AndPeek by exact Hw. apply wfe_inv in Hw as [Hw Hq]. apply orb_true_iff in H as [H|H].
    + rewrite (IH e t H Hw Ht). reflexivity.
    + destruct (ev e t) as [r|] eqn:E; [|reflexivity]. rewrite (IH q r H Hq); [reflexivity|eapply lacks_suffix; eassumption].
  - rewrite ev_AndNot by exact Hw. apply wfe_inv in Hw as [Hw Hq]. rewrite (IH e t H Hw Ht). reflexivity.
  - rewrite ev_NotThen by exact Hw. apply wfe_inv in Hw as [Hq Hw]. destruct (ev q t); [reflexivity|]. apply IH; assumption.
  - rewrite ev_Call. apply IH; [exact H|apply wfe_rule|exact Ht].
Qed.
End Need.

Definition CAPITAL_VOWELS : list char := lit "AEIOU".

Lemma stressed_needs t : lacks CAPITAL_VOWELS t -> ev (Call N_explicitly_stressed_brivla_minimal) t = None.
Proof.
  intros H. apply (needs_sound CAPITAL_VOWELS 20 _ t); [vm_compute; reflexivity|apply wfe_call|exact H].
Qed.

(** * The words of a chunk without capital vowels *)
Definition cmavo_word (w : list char) : Prop := cmavo_text (letters w) /\ ends_comma w = false.

Lemma lacks_app K a b : lacks K (a ++ b) <-> lacks K a /\ lacks K b.
Proof. apply Forall_app. Qed.

Lemma word_like_ends w : word_like w -> ends_comma w = false.
Proof. intros (a & c & -> & Hc & _). rewrite ends_comma_app. exact Hc. Qed.

Lemma fall_off_cmavo t r : ev (Call N_cmavo_minimal) t = Some r -> cmavo_word (before t r).
Proof.
  intros E. destruct (cmavo_prefix t r E) as (m & Et & Hm). subst t.
  assert (F : fall_off_ev (m ++ r) = Some r) by (unfold fall_off_ev; rewrite E; reflexivity).
  apply fall_off_ev_some in F as (_ & Hw & _). rewrite before_app in *. split; [exact Hm|apply word_like_ends, Hw].
Qed.

Lemma fall_off_lacks t : lacks CAPITAL_VOWELS t -> fall_off_ev t = ev (Call N_cmavo_minimal) t.
Proof. intros H. unfold fall_off_ev. rewrite (stressed_needs t H). destruct (ev (Call N_cmavo_minimal) t); reflexivity. Qed.

Lemma fall_cmavo k : forall t ws rest, lacks CAPITAL_VOWELS t -> fall k t = (ws, rest) -> Forall cmavo_word ws.
Proof.
  induction k as [|k IH]; intros t ws rest Ht; cbn [fall]; [intros [= <- <-]; constructor|].
  rewrite fall_off_lacks by exact Ht. destruct (ev (Call N_cmavo_minimal) t) as [r|] eqn:E; [|intros [= <- <-]; constructor].
  destruct (fall k r) as [ws' rest'] eqn:F. intros [= <- <-]. constructor; [apply fall_off_cmavo, E|].
  eapply IH; [|exact F]. eapply lacks_suffix; eassumption.
Qed.

Lemma Forall_removelast {A} (P : A -> Prop) l : Forall P l -> Forall P (removelast l).
Proof. intros H. apply Forall_forall. intros x Hx. rewrite Forall_forall in H. apply H, removelast_In, Hx. Qed.

Lemma finish_leading P ws rest : Forall P ws -> Forall P (removelast (finish ws rest)).
Proof.
  intros H. unfold finish. destruct (trim_end_commas rest) as [|c l]; [apply Forall_removelast, H|].
  rewrite removelast_last. exact H.
Qed.

Lemma leading_cmavo t : lacks CAPITAL_VOWELS t -> Forall cmavo_word (removelast (chunk_words t)).
Proof.
  intros Ht. destruct (simple_cmevla_check t) eqn:Es.
  - unfold chunk_words. rewrite Es. constructor.
  - rewrite chunk_words_finish by exact Es. destruct (fall (List.length t) t) as [ws rest] eqn:F.
    apply fall_cmavo in F; [|exact Ht]. destruct ws as [|w ws]; [apply finish_leading; constructor|].
    destruct (post_word_ev rest); apply finish_leading; [exact F|apply Forall_removelast, F].
Qed.

(** * A word by itself *)
Lemma post_word_nil : post_word_ev [] = false.
Proof. vm_compute. reflexivity. Qed.

Lemma finish_all t : ends_comma t = false -> t <> [] -> finish [] t = [t].
Proof.
  intros H Hn. unfold finish. assert (E : trim_end_commas t = t).
  { destruct (trim_end_split t) as (tail & Et & Hc). destruct tail as [|c tail] using rev_ind.
    - rewrite app_nil_r in Et. auto.
    - exfalso. rewrite Et in H. rewrite app_assoc, ends_comma_app in H. unfold ends_comma in H. cbn [last] in H.
      apply Forall_app in Hc as [_ Hc]. inversion Hc; congruence. }
  rewrite E. destruct t; [congruence|reflexivity].
Qed.

Lemma cmevla_check_ends t : simple_cmevla_check t = true -> ends_with consonant_letter (letters t).
Proof.
  unfold simple_cmevla_check. intros H.
  assert (K : find (fun ch => negb (is_comma ch)) (rev t) = match rev (letters t) with c :: _ => Some c | [] => None end).
  { rewrite find_filter, filter_rev. unfold letters.
    replace (filter (fun c => negb (is_comma c)) t) with (filter (fun c => negb (c =? 44)) t);
      [destruct (rev (filter (fun c => negb (c =? 44)) t)); reflexivity|].
    apply filter_ext. intros a. rewrite is_comma_eqb. reflexivity. }
  rewrite K in H. destruct (rev (letters t)) as [|c l] eqn:E; [discriminate|].
  exists (rev l), c. split.
  - rewrite <- (rev_involutive (letters t)), E. reflexivity.
  - apply consonant_CONS. clear - H. unfold is_consonant in H. apply mem_char_In in H.
    change (to_ascii_lowercase c) with (lower c) in H. apply consonant_CONS. exact H.
Qed.

Lemma fall_off_nil : fall_off_ev [] = None.
Proof. destruct (fall_off_ev []) as [r|] eqn:E; [|reflexivity]. apply fall_off_ev_some in E as (_ & _ & E). cbn in E. lia. Qed.
Lemma fall_nil k : fall k [] = ([], []).
Proof. destruct k; cbn [fall]; [reflexivity|]. rewrite fall_off_nil. reflexivity. Qed.

Lemma all_off_alone w : ends_comma w = false -> simple_cmevla_check w = false -> fall_off_ev w = Some [] -> chunk_words w = [w].
Proof.
  intros Hc Hs H. rewrite chunk_words_finish by exact Hs. destruct w as [|c u]; [rewrite fall_off_nil in H; discriminate|].
  cbn [List.length fall]. rewrite H, fall_nil, post_word_nil. cbn [removelast last].
  rewrite <- (app_nil_r (c :: u)) at 1. rewrite before_app, app_nil_r. apply finish_all; [exact Hc|discriminate].
Qed.

Lemma cmavo_alone w : cmavo_word w -> chunk_words w = [w].
Proof.
  intros [Hw Hc]. apply all_off_alone; [exact Hc| |].
  - destruct (simple_cmevla_check w) eqn:E; [|reflexivity]. exfalso. apply (cmavo_text_last _ Hw), cmevla_check_ends, E.
  - assert (A : accepts_all N_cmavo_minimal w = true).
    { rewrite accepts_all_letters, Hc. apply cmavo_minimal_exact; [apply letters_no_comma|exact Hw]. }
    unfold fall_off_ev, accepts_all in *. destruct (ev (Call N_cmavo_minimal) w) as [[|]|]; congruence.
Qed.

Lemma chunk_words_drop us : forall t vs, chunk_words t = us ++ vs -> exists c', t = List.concat us ++ c' /\ chunk_words c' = vs.
Proof.
  induction us as [|u us IH]; intros t vs H; [exists t; auto|]. cbn [app] in H.
  destruct (chunk_head t u (us ++ vs) H) as (c1 & -> & H1). destruct (IH c1 vs H1) as (c' & -> & H').
  exists c'. cbn [List.concat]. rewrite <- app_assoc. auto.
Qed.

Lemma last_alone t us w : ends_comma t = false -> chunk_words t = us ++ [w] -> chunk_words w = [w].
Proof.
  intros Hc H. destruct (chunk_words_drop us t [w] H) as (c' & -> & H').
  destruct (chunk_words_tile c') as (tail & E & Ht). rewrite H' in E. cbn [List.concat] in E. rewrite app_nil_r in E.
  destruct tail as [|x tail]; [rewrite app_nil_r in E; subst c'; exact H'|].
  exfalso. destruct (exists_last (l := x :: tail) ltac:(discriminate)) as (m & y & Ey). rewrite Ey in *.
  rewrite E, !app_assoc, ends_comma_app in Hc. apply Forall_app in Ht as [_ Ht]. inversion Ht. unfold ends_comma in Hc. cbn in Hc. congruence.
Qed.

(** every word of a chunk without capital vowels and without commas at the end *)
Lemma word_alone t us w vs : ends_comma t = false -> chunk_words t = us ++ w :: vs -> (vs = [] \/ lacks CAPITAL_VOWELS t) -> chunk_words w = [w].
Proof.
  intros Hc H [->|Hl]; [eapply last_alone; eassumption|]. destruct vs as [|v vs]; [eapply last_alone; eassumption|].
  pose proof (leading_cmavo t Hl) as F. rewrite H in F. rewrite removelast_app in F by discriminate.
  apply Forall_app in F as [_ F]. cbn [removelast] in F. inversion F; subst. apply cmavo_alone. assumption.
Qed.

(** * Where the words of a text are *)
Lemma spans_of_split : forall ws o a x b, spans_of o ws = a ++ x :: b ->
  exists us w vs, ws = us ++ w :: vs /\ x = mkspan (o + blen (List.concat us)) (o + blen (List.concat us) + blen w) /\
    b = spans_of (o + blen (List.concat us) + blen w) vs.
Proof.
  induction ws as [|w ws IH]; intros o a x b H; cbn [spans_of] in H; [destruct a; discriminate|].
  destruct a as [|y a].
  - injection H as <- <-. exists [], w, ws. cbn [List.concat blen app]. rewrite N.add_0_r. auto.
  - injection H as _ H. destruct (IH _ _ _ _ H) as (us & w' & vs & -> & -> & ->). exists (w :: us), w', vs.
    cbn [List.concat]. rewrite blen_app, !N.add_assoc. auto.
Qed.

Definition sep_head (t : list char) : Prop := t = [] \/ exists s u, t = s :: u /\ is_sep s.

Lemma words_at_split : forall n t o a x b, (List.length t <= n)%nat -> words_at o t = a ++ x :: b ->
  exists pre c post us w vs b', t = pre ++ c ++ post /\ no_sep c /\ sep_head post /\ chunk_words c = us ++ w :: vs /\
    x = mkspan (o + blen pre + blen (List.concat us)) (o + blen pre + blen (List.concat us) + blen w) /\
    b = spans_of (o + blen pre + blen (List.concat us) + blen w) vs ++ b' /\
    Forall (fun y => o + blen pre + blen c < sp_start y) b'.
Proof.
  induction n as [|n IH]; intros t o a x b Hn H;
    (destruct (split_seps_cases t) as [[_ Hf]|(c & s & u & Et & Hs & _ & Hf)];
     [rewrite words_at_chunk in H by exact Hf; destruct (spans_of_split _ _ _ _ _ H) as (us & w & vs & E & -> & ->);
      exists [], t, [], us, w, vs, []; cbn [blen app]; rewrite N.add_0_r, !app_nil_r; 
      repeat split; [apply no_sep_spec, Hf|left; reflexivity|exact E|constructor]|subst t]).
  - rewrite app_length in Hn. cbn [List.length] in Hn. lia.
  - rewrite words_at_app in H by exact Hs.
    assert (D : (exists b', words_at o c = a ++ x :: b' /\ b = b' ++ words_at (o + blen c + 1) u) \/
                (exists a', words_at (o + blen c + 1) u = a' ++ x :: b)).
    { clear - H. revert a H. generalize (words_at o c) as l. induction l as [|y l IH]; intros a H.
      - right. exists a. exact H.
      - destruct a as [|z a].
        + injection H as -> <-. left. exists l. auto.
        + injection H as -> H. destruct (IH a H) as [(b' & -> & ->)|(a' & ->)]; [left; exists b'; auto|right; exists a'; auto]. }
    destruct D as [(b0 & E & ->)|(a' & E)].
    + rewrite words_at_chunk in E by exact Hf. destruct (spans_of_split _ _ _ _ _ E) as (us & w & vs & E' & -> & ->).
      exists [], c, (s :: u), us, w, vs, (words_at (o + blen c + 1) u). cbn [blen app]. rewrite N.add_0_r.
      repeat split; [apply no_sep_spec, Hf|right; exists s, u; split; [reflexivity|apply is_sep_spec, Hs]|exact E'|].
      apply Forall_forall. intros y Hy. apply in_split in Hy as (p & q & Hy).
      destruct (IH u (o + blen c + 1) p y q) as (pre & c' & post & us' & w' & vs' & b' & _ & _ & _ & _ & -> & _); [|exact Hy|cbn; lia].
      rewrite app_length in Hn. cbn in Hn. lia.
    + destruct (IH u (o + blen c + 1) a' x b) as (pre & c' & post & us' & w' & vs' & b' & -> & H1 & H2 & H3 & -> & -> & H4); [|exact E|].
      * rewrite app_length in Hn. cbn in Hn. lia.
      * exists (c ++ s :: pre), c', post, us', w', vs', b'. rewrite <- app_assoc. split; [reflexivity|].
        assert (Es : clen s = 1) by (apply sep_clen, Hs).
        assert (EQ : o + blen (c ++ s :: pre) = o + blen c + 1 + blen pre) by (rewrite blen_app; cbn [blen]; lia).
        rewrite EQ. auto 10.
Qed.

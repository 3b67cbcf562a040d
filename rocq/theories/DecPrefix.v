(** DecPrefix.v -- a cmavo in front of the rest of a chunk. *)
From Verif Require Import Base Utf8 Span Peg Rules RulesApi PegMeta RulesTotal PegChars PegSim SymPeg Decompose DecomposeSpec DecomposeFacts
  DecomposeMachine DecomposeThms DecomposeSuffix DecomposeSim SpecText SpecMorph MorphFacts MorphCons MorphCmavo MorphGismu MorphThms DecMorph.
From Coq Require Import Lia Arith.

(** the rest starts with a consonant letter *)
Definition cons_tail : tailspec := Some (CONS, []).
Definition cons_head (T : list char) : Prop := exists c r, T = c :: r /\ In c CONS.

Lemma cons_plain c : In c CONS -> is_comma c = false.
Proof. apply in_plain. reflexivity. Qed.
Lemma tail_cons T : cons_head T -> tail_ok cons_tail T.
Proof.
  intros (c & r & -> & Hc). split; [|discriminate]. exists c, r. cbn [next_char]. rewrite (cons_plain c Hc). auto.
Qed.

Lemma nuc_cons_check : forallb (fun p => all_ok (List.length p) (sx cons_tail 30 (Call N_nucleus) p)) NUC = true.
Proof. vm_compute. reflexivity. Qed.

Lemma ev_nucleus_cons n T : nucleus n -> cons_head T -> ev (Call N_nucleus) (n ++ T) = Some T.
Proof.
  intros Hn HT. apply nucleus_has in Hn as (p & Hp & H).
  rewrite (sx_all_ok cons_tail 30 _ p (List.length p)).
  - f_equal. apply skipn_all_app. apply has_len, H.
  - pose proof nuc_cons_check as K. rewrite forallb_forall in K. apply K, Hp.
  - apply wfe_call.
  - apply inst_has; [exact H|]. apply tail_cons, HT.
Qed.

Lemma ev_h_cons T : cons_head T -> ev (Call N_h) T = None.
Proof.
  intros HT. apply (sx_all_fail cons_tail 30 (Call N_h) []); [vm_compute; reflexivity|apply wfe_call|].
  apply (inst_has CONS [] [] [] T); [constructor|apply tail_cons, HT].
Qed.

Lemma nuclei_nucleus_cons r T : nuclei r -> cons_head T -> exists r', ev (Call N_nucleus) (r ++ T) = Some r'.
Proof.
  intros Hr HT. destruct Hr as [n Hn|n h r Hn Hh Hr]; [exists T; apply ev_nucleus_cons; assumption|].
  exists (h :: r ++ T). rewrite <- app_assoc. apply ev_nucleus_tail; assumption.
Qed.

Lemma ev_h_tail h r T : apostrophe h -> nuclei r -> cons_head T -> ev (Call N_h) (h :: r ++ T) = Some (r ++ T).
Proof.
  intros Hh Hr HT. rewrite ev_Call. change (rule N_h) with (AndPeek (One (lit "'h")) (Call N_nucleus)).
  rewrite ev_AndPeek by reflexivity. rewrite ev_One. cbn [next_char]. rewrite (apostrophe_plain h Hh).
  assert (M : mem_char h (lit "'h") = true) by (apply mem_char_In; exact Hh). rewrite M.
  destruct (nuclei_nucleus_cons r T Hr HT) as (r' & ->). reflexivity.
Qed.

Lemma ev_NHs_cons r T : nuclei r -> cons_head T -> exists n m, nucleus n /\ r = m ++ n /\ ev (Repeat 0 NH) (r ++ T) = Some (n ++ T).
Proof.
  intros Hr HT. induction Hr as [n Hn|n h r Hn Hh Hr IH].
  - exists n, []. split; [exact Hn|]. split; [reflexivity|]. rewrite ev_Repeat by reflexivity.
    assert (E : ev NH (n ++ T) = None).
    { unfold NH, CallC. rewrite ev_Seq by reflexivity. rewrite ev_nucleus_cons by assumption. cbn [evs].
      rewrite ev_h_cons by exact HT. reflexivity. }
    rewrite E. reflexivity.
  - destruct IH as (n' & m & Hn' & -> & E). exists n', (n ++ h :: m). split; [exact Hn'|]. split; [rewrite <- app_assoc; reflexivity|].
    rewrite ev_Repeat by reflexivity. unfold NH at 1, CallC. rewrite ev_Seq by reflexivity.
    rewrite <- app_assoc. cbn [app]. rewrite ev_nucleus_tail by assumption. cbn [evs].
    rewrite ev_h_tail by assumption. cbn [Nat.pred]. exact E.
Qed.

Lemma glide_nuclei_cons r T : nuclei r -> cons_head T -> ev (Call N_glide) (r ++ T) = None.
Proof.
  intros Hr HT.
  assert (K1 : forallb (fun p => all_fail (sx cons_tail 30 (Call N_glide) p)) NUC = true) by (vm_compute; reflexivity).
  assert (K2 : forallb (fun p => all_fail (sx apos_tail 30 (Call N_glide) p)) NUC = true) by (vm_compute; reflexivity).
  rewrite forallb_forall in K1, K2.
  destruct Hr as [n Hn|n h r Hn Hh Hr]; apply nucleus_has in Hn as (p & Hp & H).
  - apply (sx_all_fail cons_tail 30 _ p); [apply K1, Hp|apply wfe_call|apply inst_has; [exact H|apply tail_cons, HT]].
  - rewrite <- app_assoc. cbn [app].
    apply (sx_all_fail apos_tail 30 _ p); [apply K2, Hp|apply wfe_call|apply inst_has; [exact H|apply tail_apos, Hh]].
Qed.

Lemma tail_nuclei_cons r T : nuclei r -> cons_head T -> tail_ok nuc_tail (r ++ T).
Proof.
  intros H HT. unfold tail_ok, nuc_tail. split.
  - destruct (nuclei_head r H) as (v & r' & -> & Hv & Hc). exists v, (r' ++ T). cbn [next_char app]. rewrite Hc. auto.
  - intros x b. cbn [SymPeg.fact]. destruct (nt_eqb x N_glide) eqn:E1; [intros HH; injection HH as <-; apply nt_eqb_eq in E1; subst x|].
    + unfold accepts. rewrite glide_nuclei_cons by assumption. reflexivity.
    + destruct (nt_eqb x N_nucleus) eqn:E2; [intros HH; injection HH as <-; apply nt_eqb_eq in E2; subst x|discriminate].
      unfold accepts. destruct (nuclei_nucleus_cons r T H HT) as (r' & ->). reflexivity.
Qed.

(** nuclei without capital vowels *)
Definition LNUC : list pat := [[lit "aeiouyY"]; [lit "a"; lit "iu"]; [lit "eo"; lit "i"]].
Lemma LNUC_spec n : nucleus n -> lacks CAPITAL_VOWELS n -> exists p, In p LNUC /\ has p n.
Proof.
  intros Hn Hl. apply nucleus_has in Hn as (p & Hp & H). cbn [NUC DIPH In] in Hp.
  assert (F : forall (K L : list char) c, forallb (fun c => memb c L || memb c CAPITAL_VOWELS) K = true -> In c K -> ~ In c CAPITAL_VOWELS -> In c L).
  { intros K L c HK Hc Hn. pose proof (forallb_in _ _ _ HK Hc) as X. cbv beta in X. apply orb_true_iff in X as [X|X]; apply memb_In in X; [exact X|contradiction]. }
  destruct Hp as [<-|[<-|[<-|[]]]].
  - inversion H as [|? v ? r [Hv Hc] Hr]; subst. inversion Hr; subst. inversion Hl; subst. exists [lit "aeiouyY"]. split; [left; reflexivity|].
    constructor; [|constructor]. split; [|exact Hc]. eapply F; [|exact Hv|assumption]. vm_compute; reflexivity.
  - inversion H as [|? v ? r [Hv Hc] Hr]; subst. inversion Hr as [|? x ? r' [Hx Hcx] Hr']; subst. inversion Hr'; subst.
    inversion Hl as [|? ? L1 L2]; subst. inversion L2; subst. exists [lit "a"; lit "iu"]. split; [right; left; reflexivity|].
    constructor; [split; [|exact Hc]|constructor; [split; [|exact Hcx]|constructor]]; eapply F; try eassumption; vm_compute; reflexivity.
  - inversion H as [|? v ? r [Hv Hc] Hr]; subst. inversion Hr as [|? x ? r' [Hx Hcx] Hr']; subst. inversion Hr'; subst.
    inversion Hl as [|? ? L1 L2]; subst. inversion L2; subst. exists [lit "eo"; lit "i"]. split; [right; right; left; reflexivity|].
    constructor; [split; [|exact Hc]|constructor; [split; [|exact Hcx]|constructor]]; eapply F; try eassumption; vm_compute; reflexivity.
Qed.

Lemma last_nuc_cons : forallb (fun p => all_ok (List.length p) (sx cons_tail 30
  or![seq![(Not N_stressed); N_nucleus]; seq![N_nucleus; (Not N_cluster)]] p)) LNUC = true.
Proof. vm_compute. reflexivity. Qed.

Lemma ev_CF3_cons w T : cmavo_form w -> lacks CAPITAL_VOWELS w -> cons_head T -> ev CF3 (w ++ T) = Some T.
Proof.
  intros H Hl HT. destruct (form_split w H) as (o & r & p & -> & Hr & Hp & Ho).
  rewrite <- app_assoc.
  assert (Hi : inst nuc_tail p (o ++ r ++ T)) by (apply inst_has; [exact Ho|apply tail_nuclei_cons; assumption]).
  assert (K1 : forallb (fun p => all_fail (sx nuc_tail 30 (Call N_h) p)) ONSETS = true) by (vm_compute; reflexivity).
  assert (K2 : forallb (fun p => all_fail (sx nuc_tail 30 (Call N_cluster) p)) ONSETS = true) by (vm_compute; reflexivity).
  assert (K3 : forallb (fun p => all_ok (List.length p) (sx nuc_tail 30 (Call N_onset) p)) ONSETS = true) by (vm_compute; reflexivity).
  rewrite forallb_forall in K1, K2, K3.
  unfold CF3, CallC. rewrite ev_Seq by reflexivity. rewrite ev_Not by reflexivity.
  rewrite (sx_all_fail nuc_tail 30 _ p _ (K1 p Hp) (wfe_call _) Hi). cbn [evs].
  rewrite ev_Not by reflexivity. rewrite (sx_all_fail nuc_tail 30 _ p _ (K2 p Hp) (wfe_call _) Hi).
  rewrite (sx_all_ok nuc_tail 30 _ p _ _ (K3 p Hp) (wfe_call _) Hi).
  rewrite skipn_all_app by (apply has_len, Ho).
  destruct (ev_NHs_cons r T Hr HT) as (n & m & Hn & -> & ->).
  apply lacks_app in Hl as [_ Hl]. apply lacks_app in Hl as [_ Hl].
  destruct (LNUC_spec n Hn Hl) as (q & Hq & Hh). pose proof last_nuc_cons as K. rewrite forallb_forall in K.
  pose proof (sx_all_ok cons_tail 30 _ q _ (n ++ T) (K q Hq) eq_refl (inst_has _ _ _ _ _ Hh (tail_cons T HT))) as L. unfold CallC in L. rewrite L.
  rewrite (skipn_all_app n T) by (apply has_len, Hh). reflexivity.
Qed.

(** * The longest match *)
Lemma evlong_longest es t T : (forall e r, In e es -> ev e t = Some r -> exists m, r = m ++ T) ->
  forall best, (exists e, In e es /\ ev e t = Some T) \/ best = Some T -> (forall b, best = Some b -> exists m, b = m ++ T) ->
  evlong es t best = Some T.
Proof.
  intros Hs. assert (S : forall m, (blen (m ++ T) <? blen T) = false).
  { intros m. apply N.ltb_ge. rewrite blen_app. lia. }
  assert (Z : forall m, (blen T <? blen (m ++ T)) = false -> m = []).
  { intros [|c m] H; [reflexivity|]. apply N.ltb_ge in H. rewrite blen_app in H. cbn [blen] in H.
    assert (0 < clen c) by (unfold clen; destruct (c <? 128), (c <? 2048), (c <? 65536); lia). lia. }
  revert Hs. induction es as [|e es IH]; intros Hs best Hex Hb.
  - destruct Hex as [(e & [] & _)| ->]. reflexivity.
  - cbn [evlong]. assert (Hs' : forall e r, In e es -> ev e t = Some r -> exists m, r = m ++ T) by (intros; eapply Hs; [right|]; eassumption).
    destruct (ev e t) as [r|] eqn:E.
    + destruct (Hs e r (or_introl eq_refl) E) as (m & ->).
      assert (G : forall best', (best' = Some (m ++ T) \/ best' = best) -> (T = m ++ T \/ best = Some T -> best' = Some T) -> evlong es t best' = Some T).
      { intros best' Hor Hk. apply (IH Hs').
        - destruct Hex as [(e' & [->|He'] & Hr)|Hex]; [right; apply Hk; left; congruence|left; eauto|right; apply Hk; right; exact Hex].
        - intros b Hbb. destruct Hor as [Hor|Hor]; rewrite Hor in Hbb; [injection Hbb as <-; eauto|eauto]. }
      destruct best as [b|].
      * destruct (Hb b eq_refl) as (m' & ->). destruct (blen (m ++ T) <? blen (m' ++ T)) eqn:L.
        -- apply G; [left; reflexivity|]. intros [X|X]; [rewrite <- X; reflexivity|]. injection X as X. rewrite X, S in L. discriminate.
        -- apply G; [right; reflexivity|]. intros [X|X]; [|exact X]. rewrite <- X in L. rewrite (Z m' L). reflexivity.
      * apply G; [left; reflexivity|]. intros [X|X]; [rewrite <- X; reflexivity|discriminate].
    + apply (IH Hs').
      * destruct Hex as [(e' & [->|He'] & Hr)|Hex]; [congruence|left; eauto|right; exact Hex].
      * exact Hb.
Qed.

(** what is matched before a consonant stays before it if it has no consonant *)
Lemma stays_before w T m r : cons_head T -> w ++ T = m ++ r -> Forall (fun c => ~ In c CONS) m -> exists m', r = m' ++ T.
Proof.
  intros (c & q & -> & Hc) E Hm. revert m E Hm. induction w as [|a w IH]; intros m E Hm.
  - destruct m as [|b m]; [exists []; auto|]. injection E as <- _. inversion Hm; contradiction.
  - destruct m as [|b m]; [exists (a :: w); auto|]. injection E as <- E. inversion Hm; subst. eapply IH; eassumption.
Qed.

Lemma no_cons_in m (K : list char) : Forall (fun c => In c K) (letters m) -> forallb (fun c => negb (memb c CONS)) K = true -> Forall (fun c => ~ In c CONS) m.
Proof.
  intros H HK. apply Forall_forall. intros c Hc Hin.
  assert (Hl : In c (letters m)).
  { unfold letters. apply filter_In. split; [exact Hc|]. pose proof (cons_plain c Hin) as X. rewrite is_comma_eqb in X. rewrite X. reflexivity. }
  rewrite Forall_forall in H. specialize (H c Hl). pose proof (forallb_in _ _ _ HK H) as X. cbv beta in X. apply memb_In in Hin. rewrite Hin in X. discriminate.
Qed.

Lemma digit_stays w T r : cons_head T -> ev (Call N_digit) (w ++ T) = Some r -> exists m, r = m ++ T.
Proof.
  intros HT E. destruct (shape_letters 12 (Call N_digit) [[lit "0123456789"]] _ r eq_refl (wfe_call _) E) as (m & q & Em & [<-|[]] & Hm).
  apply has1 in Hm as (c & Ec & Hc). eapply stays_before; [exact HT|exact Em|].
  apply (no_cons_in m (lit "0123456789")); [rewrite Ec; auto|reflexivity].
Qed.
Lemma ys_stays w T r : cons_head T -> ev (Repeat 1 (Call N_y)) (w ++ T) = Some r -> exists m, r = m ++ T.
Proof.
  intros HT E. destruct (ys_prefix _ _ 1 r (Nat.le_refl _) E) as (m & Em & Hm & _). eapply stays_before; [exact HT|exact Em|].
  apply (no_cons_in m (lit "yY")); [exact Hm|reflexivity].
Qed.
Lemma nuclei_no_cons m : nuclei m -> Forall (fun c => In c NLETTERS) m.
Proof. apply nuclei_letters. Qed.

Lemma cmavo_text_ne w : cmavo_text w -> w <> [].
Proof.
  intros H ->. destruct H as [(d & X & _)|[[X _]|[X|(d & q & X & _)]]]; [discriminate|congruence| |discriminate].
  apply nuclei_head in X as (v & r' & X & _). discriminate.
Qed.

Lemma CF3_stays w T r : w <> [] -> plain w -> cons_head T -> ev CF3 (w ++ T) = Some r -> exists m, r = m ++ T.
Proof.
  intros Hw Hpw HT E.
  assert (G : exists m, w ++ T = m ++ r /\ cmavo_text (letters m)).
  { unfold CF3, CallC in E. rewrite ev_Seq in E by reflexivity. rewrite ev_Not in E by reflexivity.
    destruct (ev (Call N_h) (w ++ T)) eqn:Eh; [discriminate|]. cbn [evs] in E. rewrite ev_Not in E by reflexivity.
    destruct (ev (Call N_cluster) (w ++ T)) eqn:Ec; [discriminate|]. destruct (ev (Call N_onset) (w ++ T)) as [r1|] eqn:Eo; [|discriminate].
    destruct (ev (Repeat 0 NH) r1) as [r2|] eqn:En; [|discriminate].
    assert (Hor : ev (Call N_nucleus) r2 = Some r).
    { rewrite ev_Or in E by reflexivity. cbn [evor] in E. rewrite !ev_Seq in E by reflexivity. cbn [evs] in E.
      rewrite ev_Not in E by reflexivity. destruct (ev (Call N_stressed) r2) as [z|].
      - destruct (ev (Call N_nucleus) r2) as [z'|]; [|discriminate]. rewrite ev_Not in E by reflexivity.
        destruct (ev (Call N_cluster) z'); [discriminate|]. exact E.
      - destruct (ev (Call N_nucleus) r2) as [z'|]; [|discriminate]. exact E. }
    destruct (onset_prefix _ r1 Eh Ec Eo) as (m & Em & Hm).
    destruct (NHs_prefix (List.length r1) r1 r2 (Nat.le_refl _) En) as (m' & -> & Hm').
    destruct (nucleus_prefix r2 r Hor) as (n & -> & Hn).
    exists (m ++ m' ++ n). rewrite <- !app_assoc. split; [exact Em|]. rewrite !letters_app.
    specialize (Hm' _ (nuclei_one _ Hn)). right. right. destruct Hm as [->|(c & -> & Hc)]; [left; exact Hm'|].
    right. exists c, (letters m' ++ letters n). auto. }
  destruct G as (m & Em & Hm). destruct w as [|a w]; [congruence|]. destruct m as [|b m].
  - exfalso. exact (cmavo_text_ne _ Hm eq_refl).
  - injection Em as <- Em. eapply stays_before; [exact HT|exact Em|].
    apply plain_cons in Hpw as [Ea _].
    assert (El : letters (a :: m) = a :: letters m) by (unfold letters; cbn [filter]; rewrite <- is_comma_eqb, Ea; reflexivity).
    rewrite El in Hm. apply (no_cons_in m NLETTERS); [|reflexivity]. eapply cmavo_text_tail; [exact Hm|reflexivity].
Qed.

Lemma ev_digit_cons d T : digit_char d -> cons_head T -> ev (Call N_digit) (d :: T) = Some T.
Proof.
  intros Hd HT. apply (sx_all_ok cons_tail 30 (Call N_digit) [lit "0123456789"] 1 (d :: T)); [vm_compute; reflexivity|apply wfe_call|].
  apply (inst_has CONS [] [lit "0123456789"] [d] T); [|apply tail_cons, HT]. constructor; [|constructor]. split; [exact Hd|]. eapply in_plain; [|exact Hd]. reflexivity.
Qed.

Lemma ev_ys_cons w T : cons_head T -> Forall (fun c => In c (lit "yY")) w -> forall m, (m <= List.length w)%nat -> ev (Repeat m (Call N_y)) (w ++ T) = Some T.
Proof.
  intros HT H. induction H as [|c u Hc Hu IH]; intros m Hm; rewrite ev_Repeat by reflexivity.
  - destruct m; [|cbn in Hm; lia]. cbn [app].
    assert (E : ev (Call N_y) T = None).
    { apply (sx_all_fail cons_tail 30 (Call N_y) []); [vm_compute; reflexivity|apply wfe_call|].
      apply (inst_has CONS [] [] [] T); [constructor|apply tail_cons, HT]. }
    rewrite E. reflexivity.
  - assert (E : ev (Call N_y) ((c :: u) ++ T) = Some (u ++ T)).
    { rewrite ev_Call. change (rule N_y) with (@One nt (lit "yY")). rewrite ev_One. cbn [next_char app].
      rewrite (in_plain c (lit "yY") eq_refl Hc). apply mem_char_In in Hc. rewrite Hc. reflexivity. }
    rewrite E. apply IH. cbn in Hm. lia.
Qed.

Lemma cmavo_form_cons w T : cmavo_text w -> lacks CAPITAL_VOWELS w -> cons_head T -> ev (Call N_cmavo_form) (w ++ T) = Some T.
Proof.
  intros H Hl HT. pose proof (cmavo_text_ne w H) as Hne. pose proof (cmavo_text_plain w H) as Hp.
  rewrite ev_Call, rule_cmavo_form, ev_Longest by reflexivity. apply evlong_longest.
  - intros e r He E. cbn [In] in He. destruct He as [<-|[<-|[<-|[]]]]; [eapply digit_stays|eapply ys_stays|eapply CF3_stays]; eassumption.
  - left. destruct H as [(d & -> & Hd)|[[_ Hy]|Hf]].
    + exists (Call N_digit). split; [left; reflexivity|]. apply ev_digit_cons; assumption.
    + exists (Repeat 1 (Call N_y)). split; [right; left; reflexivity|]. apply ev_ys_cons; [exact HT|exact Hy|]. destruct w; [congruence|cbn; lia].
    + exists CF3. split; [right; right; left; reflexivity|]. apply ev_CF3_cons; assumption.
  - discriminate.
Qed.

(** the lujvo that start with CVCy *)
Lemma cvcy_prefix u r : ev (Call N_cvcy_lujvo) u = Some r ->
  exists c v d y t, letters u = c :: v :: d :: y :: t /\ In c CONS /\ In v VOWELS /\ In d CONS /\ In y (lit "yY").
Proof.
  rewrite ev_Call.
  change (rule N_cvcy_lujvo) with (Or [Seq (Call N_cvc_rafsi) [Call N_y; Opt (Call N_h); Repeat 0 (Call N_initial_rafsi); Call N_brivla_core];
    Seq (Call N_stressed_cvc_rafsi) [Call N_y; Call N_short_final_rafsi]]).
  rewrite ev_Or by reflexivity. cbn [evor]. rewrite !ev_Seq by reflexivity. cbn [evs]. intros H.
  assert (K : exists e r1 r2, In e [Call N_cvc_rafsi; Call N_stressed_cvc_rafsi] /\ ev e u = Some r1 /\ ev (Call N_y) r1 = Some r2).
  { destruct (ev (Call N_cvc_rafsi) u) as [r1|] eqn:E1; [destruct (ev (Call N_y) r1) as [r2|] eqn:E2; [exists (Call N_cvc_rafsi), r1, r2; cbn; auto|]|].
    - destruct (ev (Call N_stressed_cvc_rafsi) u) as [r3|] eqn:E3; [|discriminate]. destruct (ev (Call N_y) r3) as [r4|] eqn:E4; [|discriminate].
      exists (Call N_stressed_cvc_rafsi), r3, r4; cbn; auto.
    - destruct (ev (Call N_stressed_cvc_rafsi) u) as [r3|] eqn:E3; [|discriminate]. destruct (ev (Call N_y) r3) as [r4|] eqn:E4; [|discriminate].
      exists (Call N_stressed_cvc_rafsi), r3, r4; cbn; auto. }
  destruct K as (e & r1 & r2 & He & Hr & Hy).
  destruct (shape_letters 20 e [[CONS; VOWELS; CONS]] u r1) as (m & q & -> & [<-|[]] & Hm); auto.
  { destruct He as [<-|[<-|[]]]; vm_compute; reflexivity. }
  { destruct He as [<-|[<-|[]]]; apply wfe_call. }
  destruct (shape_letters 12 (Call N_y) [[lit "yY"]] r1 r2 eq_refl (wfe_call _) Hy) as (my & q & -> & [<-|[]] & Hmy).
  apply has1 in Hmy as (y & Ey & Hyy). rewrite !letters_app, Ey. remember (letters m) as l eqn:El. clear El.
  inversion Hm as [|? c ? m1 [Hc _] Hm1]; subst. inversion Hm1 as [|? v ? m2 [Hv _] Hm2]; subst.
  inversion Hm2 as [|? d ? m3 [Hd _] Hm3]; subst. inversion Hm3; subst. exists c, v, d, y, (letters r2). auto 10.
Qed.

(** the second letter of the rest is not y, or the cmavo is not CV *)
Definition no_cvcy (w T : list char) : Prop := List.length w <> 2%nat \/ forall c y t, letters T = c :: y :: t -> ~ In y (lit "yY").

Lemma ev_cmavo_cons w T : cmavo_text w -> lacks CAPITAL_VOWELS w -> cons_head T -> no_cvcy w T -> ev (Call N_cmavo_minimal) (w ++ T) = Some T.
Proof.
  intros H Hl HT Hn. rewrite ev_cmavo_minimal. destruct (ev (Call N_cvcy_lujvo) (w ++ T)) as [r|] eqn:E; [exfalso|apply cmavo_form_cons; assumption].
  destruct (cvcy_prefix _ _ E) as (c & v & d & y & t & El & Hc & Hv & Hd & Hy).
  rewrite letters_app, (letters_id w) in El by (apply cmavo_text_plain, H).
  destruct w as [|a w]; [exact (cmavo_text_ne _ H eq_refl)|]. cbn [app] in El. injection El as -> El.
  pose proof (cmavo_text_tail _ _ _ H eq_refl) as F.
  destruct HT as (k & q & -> & Hk). assert (Ek : letters (k :: q) = k :: letters q).
  { unfold letters; cbn [filter]. rewrite <- is_comma_eqb, (cons_plain k Hk). reflexivity. }
  destruct w as [|b w].
  - cbn [app] in El. rewrite Ek in El. injection El as -> _. clear - Hv Hk.
    pose proof (char_sweep VOWELS (fun c => negb (memb c CONS)) v eq_refl Hv) as X. cbv beta in X. apply memb_In in Hk. rewrite Hk in X. discriminate.
  - cbn [app] in El. injection El as -> El. destruct w as [|x w].
    + cbn [app] in El. destruct Hn as [Hn|Hn]; [apply Hn; reflexivity|]. eapply Hn; [exact El|exact Hy].
    + injection El as -> _. inversion F as [|? ? _ F']; subst. inversion F' as [|? ? F2 _]; subst. eapply cons_not_nletter; eassumption.
Qed.

(** * The words *)
Lemma cmevla_check_app w T : cons_head T -> simple_cmevla_check (w ++ T) = simple_cmevla_check T.
Proof.
  intros (c & r & -> & Hc). unfold simple_cmevla_check. rewrite rev_app_distr. generalize (rev w) as z. intros z.
  assert (E : forall l, (exists x, In x l /\ negb (is_comma x) = true) -> find (fun ch => negb (is_comma ch)) (l ++ z) = find (fun ch => negb (is_comma ch)) l).
  { induction l as [|a l IH]; intros (x & Hx & Hxc); [destruct Hx|]. cbn [app find]. destruct (negb (is_comma a)) eqn:Ea; [reflexivity|].
    apply IH. destruct Hx as [->|Hx]; [congruence|eauto]. }
  rewrite E; [reflexivity|]. exists c. split; [apply in_rev; rewrite rev_involutive; left; reflexivity|]. rewrite (cons_plain c Hc). reflexivity.
Qed.

(** the rest starts with a word: something falls off it, or it can stand after a word *)
Definition good_rest (T : list char) : Prop := fall_off_ev T <> None \/ post_word_ev T = true.

Lemma chunk_words_cons w T : cmavo_text w -> lacks CAPITAL_VOWELS w -> cons_head T -> no_cvcy w T ->
  simple_cmevla_check T = false -> good_rest T -> chunk_words (w ++ T) = w :: chunk_words T.
Proof.
  intros Hw Hl HT Hn Hs Hg. assert (Ew : fall_off_ev (w ++ T) = Some T).
  { unfold fall_off_ev. rewrite ev_cmavo_cons by assumption. reflexivity. }
  rewrite (chunk_words_finish (w ++ T)) by (rewrite cmevla_check_app; assumption). rewrite (chunk_words_finish T) by exact Hs.
  assert (F : fall (List.length (w ++ T)) (w ++ T) = (w :: fst (fall (List.length T) T), snd (fall (List.length T) T))).
  { pose proof (cmavo_text_ne w Hw) as Hne. destruct (List.length (w ++ T)) as [|k] eqn:Ek.
    - destruct w; [congruence|discriminate].
    - cbn [fall]. rewrite Ew, before_app. rewrite (fall_fuel k (List.length T) T).
      + destruct (fall (List.length T) T); reflexivity.
      + rewrite app_length in Ek. destruct w; [congruence|]. cbn in Ek. lia.
      + lia. }
  rewrite F. destruct (fall (List.length T) T) as [ws rest] eqn:FT. cbn [fst snd].
  destruct ws as [|x ws].
  - assert (rest = T /\ fall_off_ev T = None) as [-> Hnone].
    { destruct HT as (c & q & -> & _). cbn [List.length fall] in FT. destruct (fall_off_ev (c :: q)) as [r|]; [|injection FT as <-; auto].
      destruct (fall (List.length q) r); discriminate. }
    destruct Hg as [Hg|Hg]; [contradiction|]. rewrite Hg. apply finish_cons.
  - destruct (post_word_ev rest); [apply finish_cons|].
    change (removelast (w :: x :: ws)) with (w :: removelast (x :: ws)). change (last (w :: x :: ws) []) with (last (x :: ws) []). apply finish_cons.
Qed.

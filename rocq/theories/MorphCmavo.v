(** MorphCmavo.v -- the texts matched by the rule cmavo_minimal are exactly the
    digits, the hesitations and the cmavo forms of SpecMorph.v. *)
From Verif Require Import Base Peg Rules RulesApi PegMeta RulesTotal PegChars PegSim SymPeg SpecText SpecMorph MorphFacts MorphCons.
From Coq Require Import Lia Arith.

Definition plain (t : list char) : Prop := Forall (fun c => is_comma c = false) t.
Definition VOWELS : list char := lit "aeiouyAEIOUY".
Definition APOS : list char := lit "'h".

Lemma vowel_or_y_VOWELS v : vowel_or_y v <-> In v VOWELS.
Proof.
  split.
  - intros H. apply lower_in in H. exact H.
  - intros H. apply memb_In. apply (char_sweep VOWELS (fun c => memb (lower c) (lit "aeiouy"))); [vm_compute; reflexivity|exact H].
Qed.

Lemma plain_cons c t : plain (c :: t) <-> is_comma c = false /\ plain t.
Proof. split; [intros H; inversion H; auto|intros [H1 H2]; constructor; auto]. Qed.
Lemma plain_app a b : plain (a ++ b) <-> plain a /\ plain b.
Proof. apply Forall_app. Qed.

Lemma in_plain c L : forallb (fun d => negb (is_comma d)) L = true -> In c L -> is_comma c = false.
Proof. intros H Hc. rewrite forallb_forall in H. specialize (H c Hc). destruct (is_comma c); [discriminate|reflexivity]. Qed.

(** * Nuclei *)
Definition DIPH : list pat := [[lit "aA"; lit "iIuU"]; [lit "eEoO"; lit "iI"]].
Definition NUC : list pat := [VOWELS] :: DIPH.

Lemma nucleus_has n : nucleus n <-> exists p, In p NUC /\ has p n.
Proof.
  split.
  - intros [(v & -> & Hv)|(v & w & -> & H)].
    + exists [VOWELS]. split; [left; reflexivity|]. apply vowel_or_y_VOWELS in Hv.
      constructor; [|constructor]. split; [exact Hv|]. eapply in_plain; [|exact Hv]. reflexivity.
    + assert (K : (In v (lit "aA") /\ In w (lit "iIuU")) \/ (In v (lit "eEoO") /\ In w (lit "iI"))).
      { cbn [map In] in H.
        assert (L : forall x c, lower x = c -> In x (([c] : list char) ++ map (fun d => d - 32) [c])).
        { intros x c E. apply lower_in. left; auto. }
        repeat (destruct H as [H|H]; [injection H as H1 H2; symmetry in H1, H2; apply L in H1; apply L in H2; cbn in H1, H2 |- *; intuition auto|]).
        destruct H. }
      destruct K as [[K1 K2]|[K1 K2]]; [exists [lit "aA"; lit "iIuU"]|exists [lit "eEoO"; lit "iI"]];
        (split; [cbn; tauto|]); (constructor; [|constructor; [|constructor]]); (split; [assumption|]);
        (eapply in_plain; [|eassumption]); reflexivity.
  - intros (p & Hp & H). cbn [NUC DIPH In] in Hp. destruct Hp as [<-|[<-|[<-|[]]]].
    + inversion H as [|? v ? r [Hv _] Hr]; subst. inversion Hr; subst. left. exists v. split; [reflexivity|].
      apply vowel_or_y_VOWELS, Hv.
    + inversion H as [|? v ? r [Hv _] Hr]; subst. inversion Hr as [|? w ? r' [Hw _] Hr']; subst. inversion Hr'; subst.
      right. exists v, w. split; [reflexivity|]. cbn in Hv, Hw.
      repeat (destruct Hv as [<-|Hv]; [repeat (destruct Hw as [<-|Hw]; [vm_compute; tauto|]); destruct Hw|]). destruct Hv.
    + inversion H as [|? v ? r [Hv _] Hr]; subst. inversion Hr as [|? w ? r' [Hw _] Hr']; subst. inversion Hr'; subst.
      right. exists v, w. split; [reflexivity|]. cbn in Hv, Hw.
      repeat (destruct Hv as [<-|Hv]; [repeat (destruct Hw as [<-|Hw]; [vm_compute; tauto|]); destruct Hw|]). destruct Hv.
Qed.

Lemma has_plain p u : has p u -> plain u.
Proof. induction 1 as [|K c p u [_ Hc] _ IH]; constructor; auto. Qed.

(** a use of the symbolic executor: all branches are matches of length [k] *)
Definition all_ok (k : nat) (o : option (list branch)) : bool :=
  match o with Some bs => forallb (fun b => match snd b with SOk j => Nat.eqb j k | _ => false end) bs | None => false end.
Definition all_fail (o : option (list branch)) : bool :=
  match o with Some bs => forallb (fun b => match snd b with SFail => true | _ => false end) bs | None => false end.

Lemma sx_all_ok tl n e p k t : all_ok k (sx tl n e p) = true -> wfe e = true -> inst tl p t -> ev e t = Some (skipn k t).
Proof.
  intros H Hw Hi. destruct (sx tl n e p) as [bs|] eqn:E; [|discriminate]. cbn [all_ok] in H.
  destruct (sx_sound tl n e p t bs Hw Hi E) as (b & Hin & _ & _ & Hr). rewrite forallb_forall in H. specialize (H b Hin).
  cbv beta in H. destruct (snd b) as [|j|]; try discriminate. apply Nat.eqb_eq in H. subst j. exact (proj1 Hr).
Qed.
Lemma sx_all_fail tl n e p t : all_fail (sx tl n e p) = true -> wfe e = true -> inst tl p t -> ev e t = None.
Proof.
  intros H Hw Hi. destruct (sx tl n e p) as [bs|] eqn:E; [|discriminate]. cbn [all_fail] in H.
  destruct (sx_sound tl n e p t bs Hw Hi E) as (b & Hin & _ & _ & Hr). rewrite forallb_forall in H. specialize (H b Hin).
  cbv beta in H. destruct (snd b) as [|j|]; try discriminate. exact Hr.
Qed.

Lemma inst_has_nil p u : has p u -> inst None p u.
Proof. intros H. exists u, []. split; [rewrite app_nil_r; reflexivity|]. split; [exact H|reflexivity]. Qed.
Lemma inst_has K facts p u T : has p u -> tail_ok (Some (K, facts)) T -> inst (Some (K, facts)) p (u ++ T).
Proof. intros H HT. exists u, T. auto. Qed.

Lemma has_len p u : has p u -> List.length p = List.length u.
Proof. apply Forall2_len. Qed.

Lemma skipn_all_app {A} (u T : list A) k : k = List.length u -> skipn k (u ++ T) = T.
Proof. intros ->. rewrite skipn_app, skipn_all, Nat.sub_diag. reflexivity. Qed.

(** A nucleus followed by an apostrophe or by nothing. *)
Definition apos_tail : tailspec := Some (APOS, []).
Lemma nuc_tail_check : forallb (fun p => all_ok (List.length p) (sx apos_tail 30 (Call N_nucleus) p)) NUC = true.
Proof. vm_compute. reflexivity. Qed.
Lemma nuc_end_check : forallb (fun p => all_ok (List.length p) (sx None 30 (Call N_nucleus) p)) NUC = true.
Proof. vm_compute. reflexivity. Qed.

Lemma apostrophe_plain h : apostrophe h -> is_comma h = false.
Proof. intros H. apply (in_plain h APOS); [reflexivity|exact H]. Qed.

Lemma tail_apos h r : apostrophe h -> tail_ok apos_tail (h :: r).
Proof.
  intros H. split; [|discriminate]. exists h, r. cbn [next_char]. rewrite (apostrophe_plain h H). auto.
Qed.

Lemma ev_nucleus_tail n h r : nucleus n -> apostrophe h -> ev (Call N_nucleus) (n ++ h :: r) = Some (h :: r).
Proof.
  intros Hn Hh. apply nucleus_has in Hn as (p & Hp & H).
  rewrite (sx_all_ok apos_tail 30 _ p (List.length p)).
  - f_equal. apply skipn_all_app. apply has_len, H.
  - pose proof nuc_tail_check as K. rewrite forallb_forall in K. apply K, Hp.
  - apply wfe_call.
  - apply inst_has; [exact H|]. apply tail_apos, Hh.
Qed.
Lemma ev_nucleus_end n : nucleus n -> ev (Call N_nucleus) n = Some [].
Proof.
  intros Hn. apply nucleus_has in Hn as (p & Hp & H).
  rewrite (sx_all_ok None 30 _ p (List.length p)).
  - f_equal. rewrite (has_len _ _ H). apply skipn_all.
  - pose proof nuc_end_check as K. rewrite forallb_forall in K. apply K, Hp.
  - apply wfe_call.
  - apply inst_has_nil, H.
Qed.

Lemma nuclei_nucleus r : nuclei r -> exists r', ev (Call N_nucleus) r = Some r'.
Proof.
  destruct 1 as [n Hn|n h r Hn Hh Hr]; [exists []; apply ev_nucleus_end, Hn|exists (h :: r); apply ev_nucleus_tail; assumption].
Qed.

Lemma nuclei_plain r : nuclei r -> plain r.
Proof.
  induction 1 as [n Hn|n h r Hn Hh Hr IH].
  - apply nucleus_has in Hn as (p & _ & H). eapply has_plain, H.
  - apply nucleus_has in Hn as (p & _ & H). apply plain_app. split; [eapply has_plain, H|]. constructor; [apply apostrophe_plain, Hh|exact IH].
Qed.

Definition NLETTERS : list char := VOWELS ++ APOS.
Lemma nuclei_letters r : nuclei r -> Forall (fun c => In c NLETTERS) r.
Proof.
  assert (N : forall n, nucleus n -> Forall (fun c => In c NLETTERS) n).
  { intros n Hn. apply nucleus_has in Hn as (p & Hp & H).
    assert (K : forall K, In K p -> incl K NLETTERS).
    { cbn [NUC DIPH In] in Hp. destruct Hp as [<-|[<-|[<-|[]]]]; intros K HK; cbn in HK;
        repeat (destruct HK as [<-|HK]; [intros c Hc; cbn in Hc |- *; tauto|]); destruct HK. }
    clear Hp. induction H as [|Kc c p u [Hc _] _ IH]; constructor.
    - apply (K Kc); [left; reflexivity|exact Hc].
    - apply IH. intros K' HK'. apply K. right. exact HK'. }
  induction 1 as [n Hn|n h r Hn Hh Hr IH]; [auto|]. apply Forall_app. split; [auto|]. constructor; [|exact IH].
  unfold NLETTERS. apply in_or_app. right. exact Hh.
Qed.

Lemma ev_h h r : apostrophe h -> nuclei r -> ev (Call N_h) (h :: r) = Some r.
Proof.
  intros Hh Hr. rewrite ev_Call. change (rule N_h) with (AndPeek (One (lit "'h")) (Call N_nucleus)).
  rewrite ev_AndPeek by reflexivity. rewrite ev_One. cbn [next_char]. rewrite (apostrophe_plain h Hh).
  assert (M : mem_char h (lit "'h") = true) by (apply mem_char_In; exact Hh). rewrite M.
  destruct (nuclei_nucleus r Hr) as (r' & ->). reflexivity.
Qed.

Definition NH : pexp nt := seq![N_nucleus; N_h].

Lemma ev_NH_end n : nucleus n -> ev NH n = None.
Proof.
  intros Hn. unfold NH, CallC. rewrite ev_Seq by reflexivity. rewrite (ev_nucleus_end n Hn). cbn [evs].
  rewrite ev_Call. change (rule N_h) with (AndPeek (One (lit "'h")) (Call N_nucleus)). rewrite ev_AndPeek by reflexivity.
  rewrite ev_One. reflexivity.
Qed.

Lemma ev_NHs r : nuclei r -> exists n, nucleus n /\ ev (Repeat 0 NH) r = Some n.
Proof.
  induction 1 as [n Hn|n h r Hn Hh Hr IH].
  - exists n. split; [exact Hn|]. rewrite ev_Repeat by reflexivity. rewrite ev_NH_end by exact Hn. reflexivity.
  - destruct IH as (n' & Hn' & E). exists n'. split; [exact Hn'|]. rewrite ev_Repeat by reflexivity.
    unfold NH at 1, CallC. rewrite ev_Seq by reflexivity. rewrite ev_nucleus_tail by assumption. cbn [evs].
    rewrite ev_h by assumption. cbn [Nat.pred]. exact E.
Qed.

(** * What is matched, for texts without commas *)
Fixpoint psub (p q : pat) : bool :=
  match p, q with
  | [], [] => true
  | a :: p', b :: q' => forallb (fun c => memb c b) a && psub p' q'
  | _, _ => false
  end.
Lemma psub_has p : forall q u, psub p q = true -> has p u -> has q u.
Proof.
  induction p as [|a p IH]; intros [|b q] u; cbn [psub]; try discriminate.
  - auto.
  - intros H Hu. apply andb_true_iff in H as [H1 H2]. inversion Hu as [|? c ? r [Hc Hcc] Hr]; subst.
    constructor; [|apply IH; assumption]. split; [|exact Hcc]. rewrite forallb_forall in H1. apply memb_In, H1, Hc.
Qed.

Definition shape_in (n : nat) (e : pexp nt) (qs : list pat) : bool :=
  match shapes n e with Some ps => forallb (fun p => existsb (psub p) qs) ps | None => false end.

Lemma shape_plain n e qs u r : shape_in n e qs = true -> wfe e = true -> plain u -> ev e u = Some r ->
  exists m q, u = m ++ r /\ In q qs /\ has q m.
Proof.
  unfold shape_in. destruct (shapes n e) as [ps|] eqn:E; [|discriminate]. intros H Hw Hu Hr.
  destruct (shapes_sound n e ps u r E Hw Hr) as (m & -> & p & Hp & Hh).
  apply plain_app in Hu as [Hm _]. rewrite letters_id in Hh by exact Hm.
  rewrite forallb_forall in H. specialize (H p Hp). apply existsb_exists in H as (q & Hq & Hs).
  exists m, q. split; [reflexivity|]. split; [exact Hq|]. eapply psub_has; eassumption.
Qed.

Lemma ev_nucleus_inv u r : plain u -> ev (Call N_nucleus) u = Some r -> exists n, u = n ++ r /\ nucleus n.
Proof.
  intros Hu H. destruct (shape_plain 12 (Call N_nucleus) NUC u r) as (m & q & -> & Hq & Hm); auto.
  exists m. split; [reflexivity|]. apply nucleus_has. exists q. auto.
Qed.

Lemma ev_h_inv u r : plain u -> ev (Call N_h) u = Some r -> exists h, u = h :: r /\ apostrophe h.
Proof.
  intros Hu H. destruct (shape_plain 12 (Call N_h) [[APOS]] u r) as (m & q & -> & Hq & Hm); auto.
  destruct Hq as [<-|[]]. inversion Hm as [|? c ? m' [Hc _] Hm']; subst. inversion Hm'; subst. exists c. auto.
Qed.

(** (nucleus h)* and then more *)
Inductive nhs : list char -> list char -> Prop :=
| nhs_nil r : nhs r r
| nhs_cons n h u r : nucleus n -> apostrophe h -> nhs u r -> nhs (n ++ h :: u) r.

Lemma nhs_nuclei u r : nhs u r -> nucleus r -> nuclei u.
Proof. induction 1; intros H'; [apply nuclei_one; assumption|apply nuclei_more; auto]. Qed.

Lemma ev_NHs_inv k : forall u r, (List.length u <= k)%nat -> plain u -> ev (Repeat 0 NH) u = Some r -> nhs u r.
Proof.
  induction k as [|k IH]; intros u r Hk Hu H; rewrite ev_Repeat in H by reflexivity.
  - destruct (ev NH u) as [v|] eqn:E; [|injection H as <-; constructor].
    apply ev_nonnull in E; [lia|reflexivity].
  - destruct (ev NH u) as [v|] eqn:E; [|injection H as <-; constructor]. cbn [Nat.pred] in H.
    unfold NH, CallC in E. rewrite ev_Seq in E by reflexivity. destruct (ev (Call N_nucleus) u) as [w|] eqn:E1; [|discriminate].
    cbn [evs] in E. destruct (ev (Call N_h) w) as [w'|] eqn:E2; [|discriminate]. injection E as <-.
    apply ev_nucleus_inv in E1 as (n & -> & Hn); [|exact Hu]. apply plain_app in Hu as [_ Hw].
    apply ev_h_inv in E2 as (h & -> & Hh); [|exact Hw]. apply plain_cons in Hw as [_ Hw].
    apply nhs_cons; auto. apply IH; auto. rewrite app_length in Hk. cbn in Hk. lia.
Qed.

(** rules that match exactly one letter *)
Fixpoint single (n : nat) (e : pexp nt) : bool :=
  match n with
  | O => false
  | S n => match e with
           | One _ => true
           | Call x => single n (rule x)
           | Or es => forallb (single n) es
           | AndNot e _ | AndPeek e _ => single n e
           | _ => false
           end
  end.
Lemma single_next n : forall e t r, single n e = true -> wfe e = true -> ev e t = Some r -> exists c, next_char t = Some (c, r).
Proof.
  induction n as [|n IH]; intros e t r; [discriminate|]. cbn [single]. intros H Hw.
  destruct e as [chs| | |e|e|es|es|e es|m e|e q|e q|q e|x]; try discriminate.
  - rewrite ev_One. destruct (next_char t) as [[c u]|]; [|discriminate]. destruct (mem_char c chs); [|discriminate]. intros [= <-]. eauto.
  - rewrite ev_Or by exact Hw. intros Hr. apply evor_in in Hr as (e & He & Hr). apply wfe_inv in Hw.
    eapply IH; [eapply forallb_in; eassumption|eapply forallb_in; eassumption|exact Hr].
  - rewrite ev_AndPeek by exact Hw. apply wfe_inv in Hw as [Hw _]. destruct (ev e t) as [r1|] eqn:E; [|discriminate].
    destruct (ev q r1); [|discriminate]. intros [= <-]. eapply IH; eassumption.
  - rewrite ev_AndNot by exact Hw. apply wfe_inv in Hw as [Hw _]. destruct (ev e t) as [r1|] eqn:E; [|discriminate].
    destruct (ev q r1); [discriminate|]. intros [= <-]. eapply IH; eassumption.
  - rewrite ev_Call. intros Hr. eapply IH; [exact H|apply wfe_rule|exact Hr].
Qed.

Lemma ev_rep_some e : wfe (Repeat 0 e) = true -> forall t, exists r, ev (Repeat 0 e) t = Some r.
Proof.
  intros Hw t. remember (List.length t) as k eqn:Ek. assert (Hk : (List.length t <= k)%nat) by lia. clear Ek. revert t Hk.
  induction k as [|k IH]; intros t Hk; rewrite ev_Repeat by exact Hw.
  - destruct (ev e t) as [r|] eqn:E; [|eauto]. apply ev_nonnull in E; [lia|]. apply wfe_inv in Hw. apply Hw.
  - destruct (ev e t) as [r|] eqn:E; [|eauto]. apply ev_nonnull in E; [|apply wfe_inv in Hw; apply Hw].
    cbn [Nat.pred]. apply IH. lia.
Qed.

Lemma ev_consonant c x v : cons_nt c = Some x -> accepts x (c :: v) = true -> ev (Call N_consonant) (c :: v) = Some v.
Proof.
  intros Hc Ha.
  assert (K : fires 5 (Call N_consonant) x = true).
  { pose proof (assoc_in _ _ _ Hc) as I. assert (K : forallb (fun d => fires 5 (Call N_consonant) (snd d)) LETTERS = true) by (vm_compute; reflexivity).
    rewrite forallb_forall in K. exact (K _ I). }
  destruct (fires_sound 5 _ x (c :: v) K (wfe_call _) Ha) as (r & Hr).
  destruct (single_next 9 (Call N_consonant) _ _ eq_refl (wfe_call _) Hr) as (d & Hd). cbn [next_char] in Hd.
  assert (Hcc : is_comma c = false).
  { apply (in_plain c CONS); [reflexivity|]. apply cons_nt_CONS. eauto. }
  rewrite Hcc in Hd. injection Hd as <- <-. exact Hr.
Qed.

(** two consonants, each matched by its own rule, are a cluster *)
Lemma own_cluster c d u r : own (c :: d :: u) r -> In c CONS -> In d CONS -> exists r', ev (Call N_cluster) (c :: d :: u ++ r) = Some r'.
Proof.
  intros Ho Hc Hd. apply cons_nt_CONS in Hc as (x & Hx). apply cons_nt_CONS in Hd as (y & Hy).
  pose proof (Ho [] c (d :: u) x eq_refl Hx) as Ax. pose proof (Ho [c] d u y eq_refl Hy) as Ay. cbn [app] in Ax.
  rewrite ev_Call. change (rule N_cluster) with (Repeat 2 (Call N_consonant)).
  rewrite ev_Repeat by reflexivity. rewrite (ev_consonant c x _ Hx Ax). cbn [Nat.pred].
  rewrite ev_Repeat by reflexivity. rewrite (ev_consonant d y _ Hy Ay). cbn [Nat.pred].
  apply ev_rep_some. reflexivity.
Qed.

(** the onset of a cmavo *)
Definition INIT_SHAPES : list pat := [[]; [CONS]; [CONS; CONS]; [CONS; CONS; CONS]].
Lemma onset_inv u r : plain u -> ev (Call N_h) u = None -> ev (Call N_cluster) u = None -> ev (Call N_onset) u = Some r ->
  u = r \/ exists c, u = c :: r /\ (consonant_letter c \/ In (lower c) (lit "iu")).
Proof.
  intros Hu Hh Hcl. rewrite ev_Call. change (rule N_onset) with (Or [Call N_h; Call N_glide; Call N_initial]).
  rewrite ev_Or by reflexivity. cbn [evor]. rewrite Hh. destruct (ev (Call N_glide) u) as [r1|] eqn:Eg.
  - intros [= <-]. destruct (shape_plain 12 (Call N_glide) [[lit "iIuU"]] u r1) as (m & q & -> & [<-|[]] & Hm); auto.
    inversion Hm as [|? c ? m' [Hc _] Hm']; subst. inversion Hm'; subst. right. exists c. split; [reflexivity|]. right.
    apply memb_In. apply (char_sweep (lit "iIuU") (fun c => memb (lower c) (lit "iu"))); [reflexivity|exact Hc].
  - destruct (ev (Call N_initial) u) as [r1|] eqn:Ei; [|discriminate]. intros [= <-].
    destruct (shape_plain 20 (Call N_initial) INIT_SHAPES u r1) as (m & q & -> & Hq & Hm); auto.
    destruct (ev_own _ _ _ Ei) as (m' & E & Ho). apply app_inv_tail in E. subst m'.
    destruct Hm as [|K c q' m [Hc _] Hm]; [left; reflexivity|]. right. exists c.
    assert (HK : K = CONS) by (unfold INIT_SHAPES in Hq; cbn [In] in Hq; intuition congruence). subst K.
    destruct Hm as [|K d q' m [Hd _] Hm]; [split; [reflexivity|]; left; apply consonant_CONS, Hc|]. exfalso.
    assert (HK : K = CONS) by (unfold INIT_SHAPES in Hq; cbn [In] in Hq; intuition congruence). subst K.
    destruct (own_cluster c d m r1 Ho Hc Hd) as (r' & Hr'). cbn [app] in Hcl. congruence.
Qed.

Definition CF3 : pexp nt := seq![(Not N_h); (Not N_cluster); N_onset; (Repeat 0%nat NH);
  or![seq![(Not N_stressed); N_nucleus]; seq![N_nucleus; (Not N_cluster)]]].

Lemma rule_cmavo_form : rule N_cmavo_form = Longest [Call N_digit; Repeat 1 (Call N_y); CF3].
Proof. reflexivity. Qed.

Lemma ys_inv k : forall u m, (List.length u <= k)%nat -> plain u -> ev (Repeat m (Call N_y)) u = Some [] -> Forall (fun c => In c (lit "yY")) u.
Proof.
  induction k as [|k IH]; intros u m Hk Hu H; rewrite ev_Repeat in H by reflexivity;
    destruct (ev (Call N_y) u) as [v|] eqn:E.
  - apply ev_nonnull in E; [lia|reflexivity].
  - destruct m; [|discriminate]. injection H as ->. constructor.
  - destruct (shape_plain 12 (Call N_y) [[lit "yY"]] u v) as (w & q & -> & [<-|[]] & Hm); auto.
    inversion Hm as [|? c ? m' [Hc _] Hm']; subst. inversion Hm'; subst. cbn [app] in *. apply plain_cons in Hu as [_ Hu].
    constructor; [exact Hc|]. eapply IH; [cbn in Hk; lia|exact Hu|exact H].
  - destruct m; [|discriminate]. injection H as ->. constructor.
Qed.

(** * The theorem *)

Lemma cmavo_form_sound u : plain u -> accepts_all N_cmavo_form u = true -> cmavo_text u.
Proof.
  intros Hu. unfold accepts_all. destruct (ev (Call N_cmavo_form) u) as [[|c r]|] eqn:E; try discriminate. intros _.
  pose proof E as E0. rewrite ev_Call, rule_cmavo_form, ev_Longest in E by reflexivity.
  apply evlong_in in E as [E|(e & He & E)]; [discriminate|]. cbn [In] in He. destruct He as [<-|[<-|[<-|[]]]].
  - left. destruct (shape_plain 12 (Call N_digit) [[lit "0123456789"]] u []) as (m & q & -> & [<-|[]] & Hm); auto.
    inversion Hm as [|? c ? m' [Hc _] Hm']; subst. inversion Hm'; subst. exists c. auto.
  - right. left. split.
    + intros ->. discriminate.
    + eapply ys_inv; [|exact Hu|exact E]. reflexivity.
  - right. right. unfold CF3, CallC in E. rewrite ev_Seq in E by reflexivity. rewrite ev_Not in E by reflexivity.
    destruct (ev (Call N_h) u) eqn:Eh; [discriminate|]. cbn [evs] in E. rewrite ev_Not in E by reflexivity.
    destruct (ev (Call N_cluster) u) eqn:Ec; [discriminate|]. destruct (ev (Call N_onset) u) as [r1|] eqn:Eo; [|discriminate].
    destruct (ev (Repeat 0 NH) r1) as [r2|] eqn:En; [|discriminate].
    assert (Hor : ev (Call N_nucleus) r2 = Some []).
    { rewrite ev_Or in E by reflexivity. cbn [evor] in E. rewrite !ev_Seq in E by reflexivity. cbn [evs] in E.
      rewrite ev_Not in E by reflexivity. destruct (ev (Call N_stressed) r2) as [z|].
      - destruct (ev (Call N_nucleus) r2) as [z'|]; [|discriminate]. rewrite ev_Not in E by reflexivity.
        destruct (ev (Call N_cluster) z'); [discriminate|]. exact E.
      - destruct (ev (Call N_nucleus) r2) as [z'|]; [|discriminate]. exact E. }
    assert (Hr1 : plain r1) by (destruct (onset_inv u r1 Hu Eh Ec Eo) as [<-|(c & -> & _)]; [exact Hu|apply plain_cons in Hu; tauto]).
    pose proof (ev_NHs_inv (List.length r1) r1 r2 (Nat.le_refl _) Hr1 En) as Hn.
    assert (Hr2 : plain r2) by (apply ev_suffix in En as (m & ->); apply plain_app in Hr1; tauto).
    destruct (ev_nucleus_inv r2 [] Hr2 Hor) as (n & -> & Hnn). rewrite app_nil_r in *.
    pose proof (nhs_nuclei _ _ Hn Hnn) as Hnu.
    destruct (onset_inv u r1 Hu Eh Ec Eo) as [->|(c & -> & Hc)]; [left; exact Hnu|right; exists c, r1; auto].
Qed.

(** * Completeness *)
Lemma evlong_best es t : forall best, (best = Some [] \/ exists e, In e es /\ ev e t = Some []) -> evlong es t best = Some [].
Proof.
  assert (Hbest : forall es, evlong es t (Some []) = Some []).
  { induction es0 as [|e es0 IH]; cbn [evlong]; [reflexivity|]. destruct (ev e t) as [r|]; [|exact IH].
    cbn [blen]. destruct (N.ltb_spec (blen r) 0); [lia|exact IH]. }
  induction es as [|e es IH]; intros best [->|(e' & He & Hr)]; [reflexivity|destruct He|apply Hbest|].
  cbn [evlong]. destruct He as [->|He].
  - rewrite Hr. destruct best as [b|]; [|apply Hbest]. destruct b as [|c b].
    + destruct (_ <? _); apply Hbest.
    + assert (L : (blen [] <? blen (c :: b)) = true).
      { apply N.ltb_lt. cbn [blen]. unfold clen. destruct (c <? 128), (c <? 2048), (c <? 65536); lia. }
      rewrite L. apply Hbest.
  - assert (G : forall b, evlong es t b = Some []) by (intros b; apply IH; right; eauto).
    destruct (ev e t); [destruct best; [destruct (_ <? _)|]|]; apply G.
Qed.

Lemma glide_not_nuclei r : nuclei r -> ev (Call N_glide) r = None.
Proof.
  intros Hr. assert (G : forall n, nucleus n -> forall T, (T = [] \/ exists h r, T = h :: r /\ apostrophe h) -> ev (Call N_glide) (n ++ T) = None).
  { intros n Hn T HT. apply nucleus_has in Hn as (p & Hp & H). destruct HT as [->|(h & r0 & -> & Hh)].
    - rewrite app_nil_r. apply (sx_all_fail None 30 _ p); [|apply wfe_call|apply inst_has_nil, H].
      assert (K : forallb (fun p => all_fail (sx None 30 (Call N_glide) p)) NUC = true) by (vm_compute; reflexivity).
      rewrite forallb_forall in K. apply K, Hp.
    - apply (sx_all_fail apos_tail 30 _ p); [|apply wfe_call|apply inst_has; [exact H|apply tail_apos, Hh]].
      assert (K : forallb (fun p => all_fail (sx apos_tail 30 (Call N_glide) p)) NUC = true) by (vm_compute; reflexivity).
      rewrite forallb_forall in K. apply K, Hp. }
  destruct Hr as [n Hn|n h r Hn Hh Hr].
  - rewrite <- (app_nil_r n). apply G; auto.
  - apply G; [exact Hn|right; eauto].
Qed.

Lemma nucleus_head n : nucleus n -> exists v r, n = v :: r /\ In v VOWELS.
Proof.
  intros H. apply nucleus_has in H as (p & Hp & Hh). cbn [NUC DIPH In] in Hp.
  destruct Hp as [<-|[<-|[<-|[]]]]; inversion Hh as [|? v ? r [Hv _] _]; subst; exists v, r; (split; [reflexivity|]).
  - exact Hv.
  - apply memb_In. apply (char_sweep (lit "aA") (fun c => memb c VOWELS)); [reflexivity|exact Hv].
  - apply memb_In. apply (char_sweep (lit "eEoO") (fun c => memb c VOWELS)); [reflexivity|exact Hv].
Qed.
Lemma nuclei_head r : nuclei r -> exists v r', r = v :: r' /\ In v VOWELS /\ is_comma v = false.
Proof.
  intros H. assert (G : exists v r', r = v :: r' /\ In v VOWELS).
  { destruct H as [n Hn|n h r Hn Hh Hr]; destruct (nucleus_head n Hn) as (v & r' & -> & Hv); cbn [app]; eauto. }
  destruct G as (v & r' & -> & Hv). exists v, r'. repeat split; auto. eapply in_plain; [|exact Hv]. reflexivity.
Qed.

Definition nuc_tail : tailspec := Some (VOWELS, [(N_glide, false); (N_nucleus, true)]).
Lemma tail_nuclei r : nuclei r -> tail_ok nuc_tail r.
Proof.
  intros H. unfold tail_ok, nuc_tail. split.
  - destruct (nuclei_head r H) as (v & r' & -> & Hv & Hc). exists v, r'. cbn [next_char]. rewrite Hc. auto.
  - intros x b. cbn [SymPeg.fact]. destruct (nt_eqb x N_glide) eqn:E1; [intros HH; injection HH as <-; apply nt_eqb_eq in E1; subst x|].
    + unfold accepts. rewrite glide_not_nuclei by exact H. reflexivity.
    + destruct (nt_eqb x N_nucleus) eqn:E2; [intros HH; injection HH as <-; apply nt_eqb_eq in E2; subst x|discriminate].
      unfold accepts. destruct (nuclei_nucleus r H) as (r' & ->). reflexivity.
Qed.

Definition ONSETS : list pat := [[]; [CONS]; [lit "iIuU"]].

Lemma form_split u : cmavo_form u -> exists o r p, u = o ++ r /\ nuclei r /\ In p ONSETS /\ has p o.
Proof.
  intros [H|(c & r & -> & Hr & Hc)].
  - exists [], u, []. split; [reflexivity|]. split; [exact H|]. split; [left; reflexivity|constructor].
  - destruct Hc as [Hc|Hc].
    + exists [c], r, [CONS]. split; [reflexivity|]. split; [exact Hr|]. split; [cbn; tauto|]. apply consonant_CONS in Hc.
      constructor; [|constructor]. split; [exact Hc|]. eapply in_plain; [|exact Hc]. reflexivity.
    + apply lower_in in Hc. exists [c], r, [lit "iIuU"]. split; [reflexivity|]. split; [exact Hr|]. split; [cbn; tauto|].
      assert (K : In c (lit "iIuU")) by (cbn in Hc |- *; tauto).
      constructor; [|constructor]. split; [exact K|]. eapply in_plain; [|exact K]. reflexivity.
Qed.

Lemma form_plain u : cmavo_form u -> plain u.
Proof.
  intros H. destruct (form_split u H) as (o & r & p & -> & Hr & _ & Ho). apply plain_app.
  split; [eapply has_plain, Ho|apply nuclei_plain, Hr].
Qed.

Lemma last_nuc_check : forallb (fun p => all_ok (List.length p) (sx None 30
  or![seq![(Not N_stressed); N_nucleus]; seq![N_nucleus; (Not N_cluster)]] p)) NUC = true.
Proof. vm_compute. reflexivity. Qed.

Lemma ev_CF3 u : cmavo_form u -> ev CF3 u = Some [].
Proof.
  intros H. destruct (form_split u H) as (o & r & p & -> & Hr & Hp & Ho).
  assert (Hi : inst nuc_tail p (o ++ r)) by (apply inst_has; [exact Ho|apply tail_nuclei, Hr]).
  assert (K1 : forallb (fun p => all_fail (sx nuc_tail 30 (Call N_h) p)) ONSETS = true) by (vm_compute; reflexivity).
  assert (K2 : forallb (fun p => all_fail (sx nuc_tail 30 (Call N_cluster) p)) ONSETS = true) by (vm_compute; reflexivity).
  assert (K3 : forallb (fun p => all_ok (List.length p) (sx nuc_tail 30 (Call N_onset) p)) ONSETS = true) by (vm_compute; reflexivity).
  rewrite forallb_forall in K1, K2, K3.
  unfold CF3, CallC. rewrite ev_Seq by reflexivity. rewrite ev_Not by reflexivity.
  rewrite (sx_all_fail nuc_tail 30 _ p _ (K1 p Hp) (wfe_call _) Hi). cbn [evs].
  rewrite ev_Not by reflexivity. rewrite (sx_all_fail nuc_tail 30 _ p _ (K2 p Hp) (wfe_call _) Hi).
  rewrite (sx_all_ok nuc_tail 30 _ p _ _ (K3 p Hp) (wfe_call _) Hi).
  rewrite skipn_all_app by (apply has_len, Ho).
  destruct (ev_NHs r Hr) as (n & Hn & ->).
  apply nucleus_has in Hn as (q & Hq & Hh). pose proof last_nuc_check as K. rewrite forallb_forall in K.
  pose proof (sx_all_ok None 30 _ q _ _ (K q Hq) eq_refl (inst_has_nil _ _ Hh)) as L. unfold CallC in L. rewrite L.
  rewrite (has_len _ _ Hh), skipn_all. reflexivity.
Qed.

Lemma cvcy_inv u r : plain u -> ev (Call N_cvcy_lujvo) u = Some r ->
  exists c v d t, u = c :: v :: d :: t /\ In c CONS /\ In v VOWELS /\ In d CONS.
Proof.
  intros Hu. rewrite ev_Call.
  change (rule N_cvcy_lujvo) with (Or [Seq (Call N_cvc_rafsi) [Call N_y; Opt (Call N_h); Repeat 0 (Call N_initial_rafsi); Call N_brivla_core];
    Seq (Call N_stressed_cvc_rafsi) [Call N_y; Call N_short_final_rafsi]]).
  rewrite ev_Or by reflexivity. cbn [evor]. rewrite !ev_Seq by reflexivity. intros H.
  assert (K : exists e r', In e [Call N_cvc_rafsi; Call N_stressed_cvc_rafsi] /\ ev e u = Some r').
  { destruct (ev (Call N_cvc_rafsi) u) as [r1|] eqn:E1; [exists (Call N_cvc_rafsi), r1; cbn; auto|].
    destruct (ev (Call N_stressed_cvc_rafsi) u) as [r2|] eqn:E2; [exists (Call N_stressed_cvc_rafsi), r2; cbn; auto|discriminate]. }
  destruct K as (e & r' & He & Hr).
  destruct (shape_plain 20 e [[CONS; VOWELS; CONS]] u r') as (m & q & -> & [<-|[]] & Hm); auto.
  { destruct He as [<-|[<-|[]]]; vm_compute; reflexivity. }
  { destruct He as [<-|[<-|[]]]; apply wfe_call. }
  inversion Hm as [|? c ? m1 [Hc _] Hm1]; subst. inversion Hm1 as [|? v ? m2 [Hv _] Hm2]; subst.
  inversion Hm2 as [|? d ? m3 [Hd _] Hm3]; subst. inversion Hm3; subst. exists c, v, d, r'. auto.
Qed.

Lemma cons_not_nletter c : In c CONS -> ~ In c NLETTERS.
Proof.
  intros H K. assert (M : negb (memb c NLETTERS) = true) by (apply (char_sweep CONS (fun c => negb (memb c NLETTERS))); [reflexivity|exact H]).
  apply memb_In in K. rewrite K in M. discriminate.
Qed.

(** only the first letter of a cmavo may be a consonant *)
Lemma form_tail u c t : cmavo_form u -> u = c :: t -> Forall (fun d => In d NLETTERS) t.
Proof.
  intros [H|(d & r & -> & Hr & _)] E.
  - apply nuclei_letters in H. rewrite E in H. inversion H; assumption.
  - injection E as <- ->. apply nuclei_letters, Hr.
Qed.

Lemma cmavo_text_tail u c t : cmavo_text u -> u = c :: t -> Forall (fun d => In d NLETTERS) t.
Proof.
  intros [(d & -> & _)|[[_ H]|H]] E.
  - injection E as <- <-. constructor.
  - rewrite E in H. inversion H as [|? ? _ H']; subst. eapply Forall_impl; [|exact H']. cbn. intros x Hx. unfold NLETTERS. cbn. tauto.
  - eapply form_tail; eassumption.
Qed.

Lemma cmavo_text_plain u : cmavo_text u -> plain u.
Proof.
  intros [(d & -> & H)|[[_ H]|H]].
  - constructor; [|constructor]. eapply in_plain; [|exact H]. reflexivity.
  - eapply Forall_impl; [|exact H]. intros c Hc. eapply in_plain; [|exact Hc]. reflexivity.
  - apply form_plain, H.
Qed.

Lemma ys_eat u m : (m <= List.length u)%nat -> Forall (fun c => In c (lit "yY")) u -> ev (Repeat m (Call N_y)) u = Some [].
Proof.
  intros Hm H. revert m Hm. induction H as [|c u Hc Hu IH]; intros m Hm; rewrite ev_Repeat by reflexivity.
  - destruct m; [|cbn in Hm; lia]. reflexivity.
  - assert (E : ev (Call N_y) (c :: u) = Some u).
    { rewrite ev_Call. change (rule N_y) with (@One nt (lit "yY")). rewrite ev_One. cbn [next_char].
      rewrite (in_plain c (lit "yY") eq_refl Hc). apply mem_char_In in Hc. rewrite Hc. reflexivity. }
    rewrite E. apply IH. cbn in Hm. lia.
Qed.

Theorem cmavo_minimal_exact u : plain u -> accepts_all N_cmavo_minimal u = true <-> cmavo_text u.
Proof.
  intros Hu. assert (Hmin : ev (Call N_cmavo_minimal) u =
    match ev (Call N_cvcy_lujvo) u with Some _ => None | None => ev (Call N_cmavo_form) u end).
  { rewrite ev_Call. change (rule N_cmavo_minimal) with (NotThen (Call N_cvcy_lujvo) (Call N_cmavo_form)).
    rewrite ev_NotThen by reflexivity. reflexivity. }
  split.
  - intros H. apply cmavo_form_sound; [exact Hu|]. unfold accepts_all in *. rewrite Hmin in H.
    destruct (ev (Call N_cvcy_lujvo) u); [discriminate|exact H].
  - intros H. unfold accepts_all. rewrite Hmin. destruct (ev (Call N_cvcy_lujvo) u) as [r|] eqn:E.
    + exfalso. destruct (cvcy_inv u r Hu E) as (c & v & d & t & -> & _ & _ & Hd).
      pose proof (cmavo_text_tail _ _ _ H eq_refl) as F. inversion F as [|? ? _ F']; subst. inversion F'; subst.
      eapply cons_not_nletter; eassumption.
    + rewrite ev_Call, rule_cmavo_form, ev_Longest by reflexivity.
      rewrite evlong_best; [reflexivity|]. right. destruct H as [(d & -> & Hd)|[[Hne Hy]|Hf]].
      * exists (Call N_digit). split; [left; reflexivity|].
        apply (sx_all_ok None 30 _ [lit "0123456789"] 1); [vm_compute; reflexivity|apply wfe_call|].
        apply inst_has_nil. constructor; [|constructor]. split; [exact Hd|]. apply plain_cons in Hu. tauto.
      * exists (Repeat 1 (Call N_y)). split; [right; left; reflexivity|]. apply ys_eat; [|exact Hy].
        destruct u; [congruence|cbn; lia].
      * exists CF3. split; [right; right; left; reflexivity|]. apply ev_CF3, Hf.
Qed.

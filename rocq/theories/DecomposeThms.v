(** DecomposeThms.v -- proofs of the properties of Props_Decompose.v. *)
From Verif Require Import Base Peg Rules RulesApi PegMeta RulesTotal PegChars Span Decompose
  DecomposeSpec DecomposeFacts History DecomposeMachine SpecText.
From Coq Require Import Lia Arith Sorting.Sorted.

Lemma is_sep_spec c : is_sep c <-> split_or_trim_condition c = true.
Proof.
  unfold is_sep, split_or_trim_condition. rewrite mem_char_In. cbn [lit SEPARATORS N_of_ascii N_of_digits app In].
  change (lit ".?! ") with [46; 63; 33; 32]. cbn [app In]. tauto.
Qed.

Lemma not_sep_spec c : ~ is_sep c <-> split_or_trim_condition c = false.
Proof. rewrite is_sep_spec. destruct (split_or_trim_condition c); split; congruence. Qed.

Lemma is_comma_spec c : is_comma c = true <-> c = 44.
Proof. unfold is_comma, COMMA. apply N.eqb_eq. Qed.

Lemma no_sep_spec t : no_sep t <-> Forall (fun c => split_or_trim_condition c = false) t.
Proof. unfold no_sep. split; apply Forall_impl; intros c; apply not_sep_spec. Qed.

Lemma commas_gap t : Forall (fun c => is_comma c = true) t -> gap t.
Proof. apply Forall_impl. intros c H. right. apply is_comma_spec; exact H. Qed.

(** ** C01 *)
Lemma decompose_total bm s : s_len s < 4294967296 -> exists ws, decompose_all bm s = Ret ws.
Proof.
  intros H. eexists. apply decompose_all_spec. unfold s_len, U32MAX in *. lia.
Qed.

Lemma history_total bm s ops : s_len s < 4294967296 ->
  exists rs d, drun bm ops (decompose s) = Ret (rs, d) /\ List.length rs = List.length ops.
Proof.
  intros H. assert (Hs : blen (txt s) <= U32MAX) by (unfold s_len, U32MAX in *; lia).
  destruct (history_spec bm s Hs ops) as (d & Hd & _). do 2 eexists. split; [exact Hd|].
  generalize (a_init (txt s)) as a. generalize (blen (txt s)) as L. clear.
  induction ops as [|op ops IH]; intros L a; cbn [a_run]; [reflexivity|].
  destruct (a_step L op a) as [x a1]. specialize (IH L a1). destruct (a_run L ops a1). cbn [fst List.length] in *. lia.
Qed.

(** ** C02, C03: positions *)

Definition a_pos (L : N) (a : astate) : N :=
  match a with
  | (w :: _, _) => sp_start w
  | ([], (o, _) :: _) => o
  | ([], []) => L
  end.

Definition slices (T : list char) (sp : span) : Prop :=
  exists x w y, T = x ++ w ++ y /\ sp = mkspan (blen x) (blen x + blen w).

Lemma spans_of_in : forall ws o done w r, spans_of o ws = done ++ w :: r ->
  exists pre m post, ws = pre ++ m :: post /\ w = mkspan (o + blen (List.concat pre)) (o + blen (List.concat pre) + blen m)
    /\ r = spans_of (o + blen (List.concat pre) + blen m) post.
Proof.
  induction ws as [|m ws IH]; intros o done w r H; cbn [spans_of] in H.
  - destruct done; discriminate.
  - destruct done as [|d done]; cbn [app] in H; injection H as H1 H2.
    + exists [], m, ws. cbn [app List.concat blen]. rewrite N.add_0_r. subst. repeat split; reflexivity.
    + apply IH in H2 as (pre & m' & post & -> & -> & ->). exists (m :: pre), m', post.
      cbn [app List.concat]. rewrite blen_app, !N.add_assoc. repeat split; reflexivity.
Qed.

(** the current word list of a state, located in the text *)
Lemma inv_current T a w r : a_inv T a -> fst a = w :: r ->
  exists x pre m post tail z,
    T = x ++ List.concat pre ++ m ++ List.concat post ++ tail ++ z /\
    Forall (fun c => is_comma c = true) tail /\
    Forall (fun c => split_or_trim_condition c = false) (List.concat pre ++ m ++ List.concat post ++ tail) /\
    chunk_words (List.concat pre ++ m ++ List.concat post ++ tail) = pre ++ m :: post /\
    w = mkspan (blen x + blen (List.concat pre)) (blen x + blen (List.concat pre) + blen m) /\
    r = spans_of (blen x + blen (List.concat pre) + blen m) post /\
    match snd a with
    | [] => z = []
    | (o', _) :: _ => o' = blen x + blen (List.concat pre ++ m ++ List.concat post ++ tail) + 1 /\
        exists s z', z = s :: z' /\ split_or_trim_condition s = true /\ snd a = chunks_off (split_seps z') o'
    end.
Proof.
  intros (pre0 & H & Hc) Hf. destruct a as [cur rem]. cbn [fst snd] in *. subst cur.
  destruct Hc as [Hc|(pre' & o & c & done & -> & Hs)]; [discriminate|].
  rewrite <- app_assoc in H. cbn [app] in H.
  apply chunks_pos in H as (x & z & HT & Ho & Hns & Hpost).
  rewrite N.add_0_l in Ho. subst o.
  apply spans_of_in in Hs as (pre & m & post & Hw & -> & ->).
  destruct (chunk_words_tile c) as (tail & Hc & Htail). rewrite Hw, concat_app in Hc. cbn [List.concat] in Hc.
  rewrite <- !app_assoc in Hc.
  exists x, pre, m, post, tail, z. rewrite <- Hc. repeat split; auto.
  rewrite HT at 1. f_equal. rewrite Hc, <- !app_assoc. reflexivity.
Qed.

Lemma inv_rem T a o c l : a_inv T a -> snd a = (o, c) :: l ->
  exists x y, T = x ++ c ++ y /\ o = blen x /\ Forall (fun a => split_or_trim_condition a = false) c /\
    match l with
    | [] => y = []
    | (o', _) :: _ => o' = o + blen c + 1 /\
        exists s y', y = s :: y' /\ split_or_trim_condition s = true /\ l = chunks_off (split_seps y') o'
    end.
Proof.
  intros (pre0 & H & _) Hs. rewrite Hs in H. apply chunks_pos in H. exact H.
Qed.

(** one step: a yielded span slices the text and lies between the positions *)
Lemma a_find_step T : forall rem w a', a_inv T ([], rem) -> a_find rem = (Some w, a') ->
  slices T w /\ a_pos (blen T) ([], rem) <= sp_start w /\ sp_start w <= sp_end w /\ sp_end w <= a_pos (blen T) a' .
Proof.
  induction rem as [|[o c] l IH]; intros w a' Hi; cbn [a_find]; [discriminate|].
  destruct (spans_of o (chunk_words c)) as [|w0 r] eqn:E.
  - intros H. assert (Hi' : a_inv T ([], l)).
    { destruct Hi as (pre & Hp & _). exists (pre ++ [(o, c)]). split; [rewrite <- app_assoc; exact Hp|left; reflexivity]. }
    destruct (IH w a' Hi' H) as (H1 & H2 & H3 & H4). split; [exact H1|]. split; [|split; [exact H3|exact H4]].
    cbn [a_pos] in *. destruct (inv_rem T _ o c l Hi eq_refl) as (x & y & HT & -> & _ & Hl).
    destruct l as [|[o' c'] l']; [discriminate|]. cbn [a_pos] in H2. lia.
  - intros [= <- <-].
    assert (Hi' : a_inv T (w0 :: r, l)).
    { destruct Hi as (pre & Hp & _). exists (pre ++ [(o, c)]). split; [rewrite <- app_assoc; exact Hp|right].
      exists pre, o, c, []. split; [reflexivity|exact E]. }
    destruct (inv_rem T _ o c l Hi eq_refl) as (x' & y' & HT' & Ho & _ & _).
    destruct (chunk_words c) as [|m ws] eqn:Ec; [discriminate|]. cbn [spans_of] in E. injection E as E1 E2.
    assert (Hst : sp_start w0 = o) by (rewrite <- E1; reflexivity). clear E1 E2.
    destruct (inv_current T _ w0 r Hi' eq_refl) as (x & pre & m' & post & tail & z & HT & _ & _ & _ & Hw & Hr & Hz).
    split.
    { exists (x ++ List.concat pre), m', (List.concat post ++ tail ++ z). rewrite blen_app. split; [|exact Hw].
      rewrite HT, <- !app_assoc. reflexivity. }
    assert (HbT : blen T = blen x + (blen (List.concat pre) + (blen m' + (blen (List.concat post) + (blen tail + blen z)))))
      by (rewrite HT, !blen_app; reflexivity).
    subst w0. cbn [a_pos sp_start sp_end] in *. split; [lia|]. split; [lia|].
    destruct r as [|w1 r]; cbn [a_pos].
    + cbn [snd] in Hz. destruct l as [|[o' c'] l']; [lia|]. destruct Hz as [-> _]. rewrite !blen_app. lia.
    + destruct post as [|m1 post]; [discriminate|]. cbn [spans_of] in Hr. injection Hr as -> _. cbn [sp_start]. lia.
Qed.

Lemma a_step_pos T op a : a_inv T a ->
  match a_step (blen T) op a with
  | (Some w, a') => slices T w /\ a_pos (blen T) a <= sp_start w /\ sp_start w <= sp_end w /\ sp_end w <= a_pos (blen T) a'
  | (None, a') => a = ([], []) \/ a' = ([], [])
  end.
Proof.
  intros Hi. destruct a as [cur rem]. destruct op; cbn [a_step].
  - destruct cur as [|w r]; cbn [a_next].
    + destruct (a_find rem) as [[w|] a'] eqn:E; [apply a_find_step; assumption|].
      right. eapply a_find_none; exact E.
    + destruct (inv_current T _ w r Hi eq_refl) as (x & pre & m' & post & tail & z & HT & _ & _ & _ & Hw & Hr & Hz).
      split.
      { exists (x ++ List.concat pre), m', (List.concat post ++ tail ++ z). rewrite blen_app. split; [|exact Hw].
        rewrite HT, <- !app_assoc. reflexivity. }
      assert (HbT : blen T = blen x + (blen (List.concat pre) + (blen m' + (blen (List.concat post) + (blen tail + blen z)))))
        by (rewrite HT, !blen_app; reflexivity).
      subst w. cbn [a_pos sp_start sp_end] in *. split; [lia|]. split; [lia|].
      destruct r as [|w1 r]; cbn [a_pos].
      * cbn [snd] in Hz. destruct rem as [|[o' c'] l']; [lia|]. destruct Hz as [-> _]. rewrite !blen_app. lia.
      * destruct post as [|m1 post]; [discriminate|]. cbn [spans_of] in Hr. injection Hr as -> _. cbn [sp_start]. lia.
  - destruct cur as [|w r]; cbn [a_nnd].
    + destruct rem as [|[o c] l]; [left; reflexivity|].
      destruct (inv_rem T _ o c l Hi eq_refl) as (x & y & HT & -> & _ & Hl).
      assert (HbT : blen T = blen x + (blen c + blen y)) by (rewrite HT, !blen_app; reflexivity).
      split; [exists x, c, y; split; [exact HT|reflexivity]|]. cbn [a_pos sp_start sp_end].
      split; [lia|]. split; [lia|]. destruct l as [|[o' c'] l']; [lia|]. destruct Hl as [-> _]. lia.
    + destruct (inv_current T _ w r Hi eq_refl) as (x & pre & m' & post & tail & z & HT & _ & _ & _ & Hw & Hr & Hz).
      assert (HbT : blen T = blen x + (blen (List.concat pre) + (blen m' + (blen (List.concat post) + (blen tail + blen z)))))
        by (rewrite HT, !blen_app; reflexivity).
      cbn [snd] in Hz.
      assert (He : (match rem with [] => blen T | (o, _) :: _ => o - 1 end)
                   = blen (x ++ List.concat pre) + blen (m' ++ List.concat post ++ tail)).
      { rewrite !blen_app. destruct rem as [|[o' c'] l']; [subst z; cbn [blen] in HbT; lia|].
        destruct Hz as [-> _]. rewrite !blen_app. lia. }
      rewrite He. subst w. cbn [a_pos sp_start sp_end]. split.
      { exists (x ++ List.concat pre), (m' ++ List.concat post ++ tail), z. split; [rewrite HT, <- !app_assoc; reflexivity|].
        rewrite !blen_app. reflexivity. }
      rewrite !blen_app. split; [lia|]. split; [lia|]. destruct rem as [|[o' c'] l']; [lia|]. destruct Hz as [-> _]. rewrite !blen_app. lia.
Qed.

Lemma a_step_none T L op a a' : a_step L op a = (None, a') -> a_inv T a -> a' = ([], []).
Proof.
  destruct a as [cur rem]. destruct op; cbn [a_step]; destruct cur as [|w r]; cbn [a_next a_nnd].
  - intros H _. eapply a_find_none; exact H.
  - discriminate.
  - destruct rem as [|[o c] l]; [intros [= <-] _; reflexivity|discriminate].
  - discriminate.
Qed.

Lemma a_run_done L : forall ops, a_run L ops ([], []) = (repeat None (List.length ops), ([], [])).
Proof.
  induction ops as [|op ops IH]; [reflexivity|]. cbn [a_run].
  replace (a_step L op ([], [])) with (@None span, (@nil span, @nil (N * list char))) by (destruct op; reflexivity).
  rewrite IH. reflexivity.
Qed.

Lemma a_run_ordered T : forall ops a, a_inv T a ->
  Forall (slices T) (somes (fst (a_run (blen T) ops a))) /\
  Forall (fun w => a_pos (blen T) a <= sp_start w) (somes (fst (a_run (blen T) ops a))) /\
  StronglySorted (fun v w => sp_end v <= sp_start w) (somes (fst (a_run (blen T) ops a))).
Proof.
  induction ops as [|op ops IH]; intros a Hi; cbn [a_run].
  - repeat split; constructor.
  - pose proof (a_step_pos T op a Hi) as Hp. pose proof (a_step_inv T (blen T) op a Hi) as Hi1.
    destruct (a_step (blen T) op a) as [[w|] a1] eqn:E.
    + cbn [snd] in Hi1. specialize (IH a1 Hi1). destruct (a_run (blen T) ops a1) as [xs a2].
      cbn [fst somes] in *. destruct IH as (I1 & I2 & I3). destruct Hp as (P1 & P2 & P3 & P4).
      repeat split; constructor; auto.
      * eapply Forall_impl; [|exact I2]. intros v Hv. cbn beta in *. lia.
      * eapply Forall_impl; [|exact I2]. intros v Hv. cbn beta in *. lia.
    + apply (a_step_none T) in E; [|exact Hi]. subst a1. rewrite a_run_done. cbn [fst somes].
      replace (somes (repeat (@None span) (List.length ops))) with (@nil span).
      * repeat split; constructor.
      * induction (List.length ops) as [|n IHn]; [reflexivity|]. cbn [repeat somes]. exact IHn.
Qed.

Lemma in_somes {A} (x : A) l : In x (somes l) <-> In (Some x) l.
Proof.
  induction l as [|[a|] l IH]; cbn [somes In]; [tauto| |].
  - rewrite IH. split; intros [H|H]; auto; [left; congruence|injection H as ->; left; reflexivity].
  - rewrite IH. split; [auto|intros [H|H]; [discriminate|exact H]].
Qed.

Lemma slices_slice s sp : slices (txt s) sp -> exists w, span_slice sp s = Some w.
Proof.
  intros (x & w & y & Ht & ->). destruct s as [p t]. cbn [txt] in Ht. subst t.
  unfold span_slice. cbn [sp_start sp_end]. rewrite s_get_mid. eexists; reflexivity.
Qed.

Lemma history_positions bm s ops rs d : s_len s < 4294967296 ->
  drun bm ops (decompose s) = Ret (rs, d) ->
  (forall sp, In (Some sp) rs -> exists w, span_slice sp s = Some w) /\
  StronglySorted (fun v w => sp_end v <= sp_start w) (somes rs).
Proof.
  intros H Hd. assert (Hs : blen (txt s) <= U32MAX) by (unfold s_len, U32MAX in *; lia).
  destruct (history_spec bm s Hs ops) as (d' & Hd' & _). rewrite Hd in Hd'. injection Hd' as -> _.
  destruct (a_run_ordered (txt s) ops (a_init (txt s)) (a_inv_init (txt s))) as (I1 & _ & I3).
  split; [|exact I3]. intros sp Hin. apply in_somes in Hin. rewrite Forall_forall in I1.
  apply slices_slice. apply I1. exact Hin.
Qed.

(** ** C04, C05: tiling *)

Lemma gap_app a b : gap a -> gap b -> gap (a ++ b).
Proof. intros; apply Forall_app; split; assumption. Qed.

Lemma tiled_true b o t sps : tiled b o t sps -> tiled true o t sps.
Proof.
  destruct 1 as [b o g Hg|b o g w rest sps Hg Hw Hr]; constructor; auto.
  destruct b; [exact Hg|]. destruct Hg; assumption.
Qed.

Lemma tiled_sep b o t1 sps1 : tiled b o t1 sps1 -> forall s t2 sps2, is_sep s ->
  tiled true (o + blen t1 + 1) t2 sps2 -> tiled b o (t1 ++ s :: t2) (sps1 ++ sps2).
Proof.
  induction 1 as [b o g Hg|b o g w rest sps Hg Hw Hr IH]; intros s t2 sps2 Hs H2; cbn [app].
  - assert (Hc : clen s = 1) by (apply sep_clen; apply is_sep_spec; exact Hs).
    inversion H2 as [b' o' g2 Hg2|b' o' g2 w rest sps Hg2 Hw Hr]; subst.
    + apply tiled_end. apply gap_app; [exact Hg|]. constructor; [left; exact Hs|exact Hg2].
    + assert (E : g ++ s :: g2 ++ w ++ rest = (g ++ s :: g2) ++ w ++ rest)
        by (rewrite <- app_assoc; reflexivity). rewrite E.
      replace (o + blen g + 1 + blen g2) with (o + blen (g ++ s :: g2)) in *
        by (rewrite blen_app, blen_cons, Hc; lia).
      assert (HG : gap (g ++ s :: g2)).
      { apply gap_app; [exact Hg|]. constructor; [left; exact Hs|exact Hg2]. }
      apply tiled_word; auto. destruct b; [exact HG|]. split; [exact HG|]. right. exists s. split; [|exact Hs].
      apply in_or_app; right; left; reflexivity.
  - rewrite <- !app_assoc. apply tiled_word; auto. apply IH; [exact Hs|].
    rewrite !blen_app in H2. replace (o + blen g + blen w + blen rest + 1) with (o + (blen g + (blen w + blen rest)) + 1) by lia.
    exact H2.
Qed.

Lemma proper_spec w : has_non_comma w -> Forall (fun c => split_or_trim_condition c = false) w -> proper_word w.
Proof.
  intros (c & Hin & Hc) Hs. split; [apply no_sep_spec; exact Hs|]. exists c. split; [exact Hin|].
  intros E. apply is_comma_spec in E. congruence.
Qed.

Lemma tiled_words : forall ws b o tail, Forall proper_word ws -> gap tail ->
  tiled b o (List.concat ws ++ tail) (spans_of o ws).
Proof.
  induction ws as [|w ws IH]; intros b o tail Hw Ht; cbn [List.concat spans_of app].
  - apply tiled_end; exact Ht.
  - inversion Hw as [|? ? Hw1 Hw2]; subst. rewrite <- app_assoc.
    pose proof (tiled_word b o [] w (List.concat ws ++ tail) (spans_of (o + blen w) ws)) as H.
    cbn [app blen] in H. rewrite N.add_0_r in H. apply H; auto.
    destruct b; [constructor|]. split; [constructor|left; reflexivity].
Qed.

Lemma tiled_chunk b o c : Forall (fun c => split_or_trim_condition c = false) c ->
  tiled b o c (spans_of o (chunk_words c)).
Proof.
  intros Hc. destruct (chunk_words_tile c) as (tail & Ht & Htail).
  rewrite Ht at 1. apply tiled_words; [|apply commas_gap; exact Htail].
  apply Forall_forall. intros w Hw. pose proof (chunk_words_proper c) as Hp. rewrite Forall_forall in Hp, Hc.
  apply proper_spec; [apply Hp; exact Hw|]. apply Forall_forall. intros a Ha. apply Hc. rewrite Ht.
  apply in_or_app; left. apply in_concat. exists w. split; assumption.
Qed.

Lemma tiled_text : forall n t o, (List.length t <= n)%nat ->
  tiled true o t (flat_map (fun oc => spans_of (fst oc) (chunk_words (snd oc))) (chunks_off (split_seps t) o)).
Proof.
  induction n as [|n IH]; intros t o Hn;
    (destruct (split_seps_cases t) as [[-> Hf]|(c & s & u & -> & Hs & -> & Hf)];
     [cbn [chunks_off flat_map fst snd]; rewrite app_nil_r; apply tiled_chunk; exact Hf|]).
  - rewrite app_length in Hn. cbn [List.length] in Hn. lia.
  - cbn [chunks_off flat_map fst snd]. apply tiled_sep.
    + apply tiled_chunk; exact Hf.
    + apply is_sep_spec; exact Hs.
    + apply IH. rewrite app_length in Hn. cbn [List.length] in Hn. lia.
Qed.

Lemma decompose_tiled bm s ws : decompose_all bm s = Ret ws -> s_len s < 4294967296 -> tiled true 0 (txt s) ws.
Proof.
  intros H Hl. rewrite decompose_all_spec in H by (unfold s_len, U32MAX in *; lia). injection H as <-.
  apply (tiled_text (List.length (txt s))). lia.
Qed.

Lemma tiled_in b o t sps : tiled b o t sps -> forall x sp, In sp sps -> blen x = o ->
  exists a w y, x ++ t = a ++ w ++ y /\ proper_word w /\ sp = mkspan (blen a) (blen a + blen w).
Proof.
  induction 1 as [b o g Hg|b o g w rest sps Hg Hw Hr IH]; intros x sp Hin Hx; [destruct Hin|].
  destruct Hin as [<-|Hin].
  - exists (x ++ g), w, rest. rewrite blen_app, Hx. split; [rewrite <- app_assoc; reflexivity|]. split; [exact Hw|reflexivity].
  - destruct (IH (x ++ g ++ w) sp Hin) as (a & w' & y & E & Hw' & Hsp).
    + rewrite !blen_app. lia.
    + exists a, w', y. split; [rewrite <- E, <- !app_assoc; reflexivity|]. split; assumption.
Qed.

Lemma decompose_proper bm s ws sp : decompose_all bm s = Ret ws -> s_len s < 4294967296 -> In sp ws ->
  exists w, span_slice sp s = Some w /\ proper_word (txt w) /\ sp_start sp < sp_end sp.
Proof.
  intros H Hl Hin. apply decompose_tiled in H; [|exact Hl].
  destruct (tiled_in _ _ _ _ H [] sp Hin eq_refl) as (a & w & y & E & Hw & ->). cbn [app] in E.
  exists (mkstr (ptr s + blen a) w). destruct s as [p t]. cbn [txt ptr] in *. subst t.
  split; [apply s_get_mid|]. split; [exact Hw|]. cbn [sp_start sp_end].
  destruct Hw as [_ (c & Hc & _)]. destruct w as [|d w]; [destruct Hc|]. rewrite blen_cons. pose proof (clen_pos d). lia.
Qed.

(** ** C06 *)
Lemma seps_sum t : fold_right (fun c n => blen c + 1 + n) 0 (split_seps t) = blen t + 1.
Proof.
  induction t as [|c t IH]; cbn [split_seps]; [reflexivity|].
  destruct (split_or_trim_condition c) eqn:E.
  - cbn [fold_right blen]. rewrite IH, (sep_clen c E). lia.
  - destruct (split_seps t) as [|x l] eqn:Es; [destruct (split_seps_ne t Es)|].
    cbn [fold_right] in *. rewrite !blen_cons. lia.
Qed.

Lemma spans_of_shift n : forall ws o, spans_of (n + o) ws = map (shift_span n) (spans_of o ws).
Proof.
  induction ws as [|w ws IH]; intros o; cbn [spans_of map]; [reflexivity|].
  unfold shift_span at 1. cbn [sp_start sp_end]. rewrite <- IH, N.add_assoc. reflexivity.
Qed.

Lemma flat_shift n : forall cs o,
  flat_map (fun oc => spans_of (fst oc) (chunk_words (snd oc))) (chunks_off cs (n + o)) =
  map (shift_span n) (flat_map (fun oc => spans_of (fst oc) (chunk_words (snd oc))) (chunks_off cs o)).
Proof.
  induction cs as [|c cs IH]; intros o; cbn [chunks_off flat_map fst snd]; [reflexivity|].
  rewrite map_app, <- IH, spans_of_shift. do 3 f_equal. lia.
Qed.

Lemma text_words_app a s b : is_sep s ->
  text_words (a ++ s :: b) = text_words a ++ map (shift_span (blen a + 1)) (text_words b).
Proof.
  intros Hs. unfold text_words, chunks_of. apply is_sep_spec in Hs.
  rewrite split_seps_app by exact Hs. rewrite chunks_off_app, flat_map_app, seps_sum, N.add_0_l. f_equal.
  rewrite <- flat_shift, N.add_0_r. reflexivity.
Qed.

Lemma decompose_separator bm p pa pb a s b wa wb : is_sep s -> blen (a ++ s :: b) < 4294967296 ->
  decompose_all bm (mkstr pa a) = Ret wa -> decompose_all bm (mkstr pb b) = Ret wb ->
  decompose_all bm (mkstr p (a ++ s :: b)) = Ret (wa ++ map (shift_span (blen a + 1)) wb).
Proof.
  intros Hs Hl Ha Hb. pose proof Hl as Hl'. rewrite blen_app, blen_cons in Hl'.
  rewrite decompose_all_spec in * by (cbn [txt]; unfold U32MAX; lia).
  cbn [txt] in *. injection Ha as <-. injection Hb as <-. rewrite text_words_app by exact Hs. reflexivity.
Qed.

(** ** C07 *)
Lemma text_words_chunk c : no_sep c -> text_words c = spans_of 0 (chunk_words c).
Proof.
  intros H. unfold text_words, chunks_of. rewrite split_seps_one by (apply no_sep_spec; exact H).
  cbn [chunks_off flat_map fst snd]. apply app_nil_r.
Qed.

Lemma consonant_letter_spec c : is_consonant_letter c -> is_consonant c = true /\ is_comma c = false.
Proof.
  intros H. unfold is_consonant_letter in H. apply mem_char_In in H. revert c H.
  assert (forallb (fun c => is_consonant c && negb (is_comma c)) (lit "bcdfgjklmnprstvxzBCDFGJKLMNPRSTVXZ") = true) as E
    by (vm_compute; reflexivity).
  rewrite forallb_forall in E. intros c H. apply mem_char_In in H. apply E in H.
  apply andb_true_iff in H as [H1 H2]. split; [exact H1|]. destruct (is_comma c); [discriminate|reflexivity].
Qed.

Lemma cmevla_chunk a k tail : is_consonant_letter k -> all_commas tail ->
  chunk_words (a ++ k :: tail) = [a ++ k :: tail].
Proof.
  intros Hk Ht. apply consonant_letter_spec in Hk as [Hk Hkc]. unfold chunk_words.
  replace (simple_cmevla_check (a ++ k :: tail)) with true; [reflexivity|].
  unfold simple_cmevla_check. rewrite rev_app_distr. cbn [rev]. rewrite <- app_assoc. cbn [app].
  assert (H : forall l, all_commas l -> find (fun ch => negb (is_comma ch)) (l ++ k :: rev a) = Some k).
  { induction 1 as [|c l Hc _ IH]; cbn [app find]; [rewrite Hkc; reflexivity|].
    apply is_comma_spec in Hc. rewrite Hc. exact IH. }
  rewrite H; [rewrite Hk; reflexivity|]. apply Forall_rev. exact Ht.
Qed.

Lemma text_words_bound t : Forall (fun sp => sp_end sp <= blen t) (text_words t).
Proof.
  apply Forall_forall. intros sp Hin. pose proof (tiled_text (List.length t) t 0 (Nat.le_refl _)) as H.
  destruct (tiled_in _ _ _ _ H [] sp Hin eq_refl) as (a & w & y & E & _ & ->). cbn [app] in E.
  rewrite E, !blen_app. cbn [sp_end]. lia.
Qed.

Lemma text_words_around x c y : no_sep c ->
  (x = [] \/ exists x' s, x = x' ++ [s] /\ is_sep s) ->
  (y = [] \/ exists s y', y = s :: y' /\ is_sep s) ->
  exists l1 l2, text_words (x ++ c ++ y) = l1 ++ spans_of (blen x) (chunk_words c) ++ l2 /\
    Forall (fun sp => sp_end sp <= blen x) l1 /\ Forall (fun sp => blen x + blen c <= sp_start sp) l2 /\
    (x = [] -> l1 = []) /\
    (forall x' s, x = x' ++ [s] -> l1 = text_words x') /\
    (y = [] -> l2 = []) /\
    (forall s y', y = s :: y' -> l2 = map (shift_span (blen x + blen c + 1)) (text_words y')).
Proof.
  intros Hc Hx Hy.
  assert (Hcy : exists l2, text_words (c ++ y) = spans_of 0 (chunk_words c) ++ l2 /\
     Forall (fun sp => blen c <= sp_start sp) l2 /\ (y = [] -> l2 = []) /\
     (forall s y', y = s :: y' -> l2 = map (shift_span (blen c + 1)) (text_words y'))).
  { destruct Hy as [->|(s & y' & -> & Hs)].
    - exists []. rewrite !app_nil_r. split; [apply text_words_chunk; exact Hc|]. split; [constructor|].
      split; [reflexivity|discriminate].
    - exists (map (shift_span (blen c + 1)) (text_words y')). rewrite text_words_app by exact Hs.
      split; [rewrite text_words_chunk by exact Hc; reflexivity|]. split; [|split; [discriminate|intros ? ? [= <- <-]; reflexivity]].
      apply Forall_forall. intros sp Hin. apply in_map_iff in Hin as (v & <- & _). cbn [shift_span sp_start]. lia. }
  destruct Hcy as (l2 & E2 & F2 & N2 & M2).
  destruct Hx as [->|(x' & s & -> & Hs)].
  - exists [], l2. cbn [app blen]. split; [exact E2|]. split; [constructor|].
    split; [eapply Forall_impl; [|exact F2]; intros v Hv; cbn beta in *; lia|].
    split; [reflexivity|]. split; [intros x' s H; destruct x'; discriminate|]. split; [exact N2|].
    intros s y' H. rewrite (M2 s y' H). reflexivity.
  - assert (Hcl : clen s = 1) by (apply sep_clen, is_sep_spec; exact Hs).
    exists (text_words x'), (map (shift_span (blen x' + 1)) l2).
    rewrite <- app_assoc. cbn [app]. rewrite text_words_app by exact Hs.
    rewrite E2, map_app, <- spans_of_shift, N.add_0_r.
    rewrite blen_app. cbn [blen]. rewrite Hcl, N.add_0_r. split; [reflexivity|].
    split; [eapply Forall_impl; [|apply text_words_bound]; intros v Hv; cbn beta in *; lia|].
    split.
    { apply Forall_forall. intros sp Hin. apply in_map_iff in Hin as (v & <- & Hv). rewrite Forall_forall in F2.
      specialize (F2 v Hv). cbn beta in F2. cbn [shift_span sp_start]. lia. }
    split; [intros H; destruct x'; discriminate|].
    split; [intros x'' s' H; apply app_inj_tail in H as [<- _]; reflexivity|].
    split; [intros H; rewrite N2 by exact H; reflexivity|].
    intros s2 y' H. rewrite (M2 s2 y' H), map_map. apply map_ext. intros v. unfold shift_span.
    cbn [sp_start sp_end]. f_equal; lia.
Qed.

Lemma decompose_cmevla_chunk bm s x a k tail ws : s_len s < 4294967296 ->
  chunk_at (txt s) x (a ++ k :: tail) -> is_consonant_letter k -> all_commas tail ->
  decompose_all bm s = Ret ws ->
  exists l1 l2, ws = l1 ++ mkspan (blen x) (blen x + blen (a ++ k :: tail)) :: l2 /\
    Forall (fun sp => sp_end sp <= blen x) l1 /\
    Forall (fun sp => blen x + blen (a ++ k :: tail) <= sp_start sp) l2.
Proof.
  intros Hl (Hc & Hx & y & Ht & Hy) Hk Htail H.
  rewrite decompose_all_spec in H by (unfold s_len, U32MAX in *; lia). injection H as <-. rewrite Ht.
  destruct (text_words_around x _ y Hc Hx Hy) as (l1 & l2 & E & F1 & F2 & _).
  exists l1, l2. rewrite E. rewrite cmevla_chunk by assumption. cbn [spans_of app]. repeat split; auto.
Qed.

(** ** C08 *)
Lemma a_run_nodec L k : forall rem,
  a_run L (repeat ONoDec (List.length rem + k)) ([], rem) =
  (map (fun oc => Some (mkspan (fst oc) (fst oc + blen (snd oc)))) rem ++ repeat None k, ([], [])).
Proof.
  induction rem as [|[o c] l IH]; cbn [List.length Nat.add].
  - rewrite a_run_done. rewrite repeat_length. reflexivity.
  - cbn [repeat a_run a_step a_nnd]. rewrite IH. reflexivity.
Qed.

Lemma joined_chunks : forall n t o, (List.length t <= n)%nat ->
  joined o t (map (fun oc => mkspan (fst oc) (fst oc + blen (snd oc))) (chunks_off (split_seps t) o)).
Proof.
  induction n as [|n IH]; intros t o Hn;
    (destruct (split_seps_cases t) as [[-> Hf]|(c & s & u & -> & Hs & -> & Hf)];
     [cbn [chunks_off map fst snd]; apply joined_last; apply no_sep_spec; exact Hf|]).
  - rewrite app_length in Hn. cbn [List.length] in Hn. lia.
  - cbn [chunks_off map fst snd]. apply joined_cons.
    + apply no_sep_spec; exact Hf.
    + apply is_sep_spec; exact Hs.
    + apply IH. rewrite app_length in Hn. cbn [List.length] in Hn. lia.
Qed.

Lemma nodec_splits bm s k : s_len s < 4294967296 ->
  exists sps d, joined 0 (txt s) sps /\
    drun bm (repeat ONoDec (List.length sps + k)) (decompose s) = Ret (map Some sps ++ repeat None k, d).
Proof.
  intros H. assert (Hs : blen (txt s) <= U32MAX) by (unfold s_len, U32MAX in *; lia).
  exists (map (fun oc => mkspan (fst oc) (fst oc + blen (snd oc))) (chunks_of (txt s))).
  destruct (history_spec bm s Hs (repeat ONoDec (List.length (chunks_of (txt s)) + k))) as (d & Hd & _).
  exists d. split; [apply (joined_chunks (List.length (txt s))); lia|].
  rewrite map_length, Hd. unfold a_init. rewrite a_run_nodec. cbn [fst]. rewrite map_map. reflexivity.
Qed.

(** ** C10 *)
Lemma a_run_app L ops1 ops2 a :
  a_run L (ops1 ++ ops2) a =
  let (x1, a1) := a_run L ops1 a in let (x2, a2) := a_run L ops2 a1 in (x1 ++ x2, a2).
Proof.
  revert a; induction ops1 as [|op ops IH]; intros a; cbn [app a_run].
  - destruct (a_run L ops2 a); reflexivity.
  - destruct (a_step L op a) as [x a1]. rewrite IH. destruct (a_run L ops a1) as [xs a2].
    destruct (a_run L ops2 a2). reflexivity.
Qed.

Lemma a_run_length L : forall ops a, List.length (fst (a_run L ops a)) = List.length ops.
Proof.
  induction ops as [|op ops IH]; intros a; cbn [a_run]; [reflexivity|].
  destruct (a_step L op a) as [x a1]. specialize (IH a1). destruct (a_run L ops a1). cbn [fst List.length] in *. lia.
Qed.

Lemma decomposer_fused bm s ops op ops' rs rs' d : s_len s < 4294967296 ->
  drun bm (ops ++ op :: ops') (decompose s) = Ret (rs ++ None :: rs', d) ->
  List.length rs = List.length ops -> Forall (fun r => r = None) rs'.
Proof.
  intros H Hd Hlen. assert (Hs : blen (txt s) <= U32MAX) by (unfold s_len, U32MAX in *; lia).
  destruct (history_spec bm s Hs (ops ++ op :: ops')) as (d' & Hd' & _). rewrite Hd in Hd'. injection Hd' as Hr _.
  rewrite a_run_app in Hr. pose proof (a_run_inv (txt s) (blen (txt s)) ops _ (a_inv_init (txt s))) as Hi.
  pose proof (a_run_length (blen (txt s)) ops (a_init (txt s))) as Hl1.
  destruct (a_run (blen (txt s)) ops (a_init (txt s))) as [x1 a1]. cbn [fst snd] in *.
  cbn [a_run] in Hr. destruct (a_step (blen (txt s)) op a1) as [x a2] eqn:E.
  assert (Hx : rs = x1 /\ exists l, None :: rs' = x :: l /\ l = fst (a_run (blen (txt s)) ops' a2)).
  { destruct (a_run (blen (txt s)) ops' a2) as [x2 a3]. cbn [fst] in *.
    assert (Hll : List.length rs = List.length x1) by lia. clear - Hr Hll.
    revert x1 Hr Hll. induction rs as [|r rs IH]; intros [|y x1] Hr Hll; try discriminate; cbn [app] in Hr.
    - split; [reflexivity|]. exists x2. split; [exact Hr|reflexivity].
    - injection Hr as -> Hr. injection Hll as Hll. destruct (IH x1 Hr Hll) as [-> HH]. split; [reflexivity|exact HH]. }
  destruct Hx as [_ (l & [= <- ->] & ->)].
  apply (a_step_none (txt s)) in E; [|exact Hi]. subst a2. rewrite a_run_done. cbn [fst].
  apply Forall_forall. intros r Hin. apply repeat_spec in Hin. exact Hin.
Qed.

(** ** C11 *)
Lemma refines_hint s d a : refines s d a -> peeked (chunks d) = None ->
  dec_size_hint d = N.of_nat (List.length (fst a)).
Proof.
  intros (_ & Hc & _ & _) Hp. unfold dec_size_hint, pk_size_hint. rewrite Hc, Hp. lia.
Qed.

Lemma drun_next_peeked bm s n : blen (txt s) <= U32MAX -> forall d a, refines s d a -> a_inv (txt s) a ->
  peeked (chunks d) = None ->
  exists rs d', drun bm (repeat ONext n) d = Ret (rs, d') /\ peeked (chunks d') = None /\
    refines s d' (snd (a_run (blen (txt s)) (repeat ONext n) a)).
Proof.
  intros Hs. induction n as [|n IH]; intros d a Hr Hi Hp; cbn [repeat drun a_run].
  - exists [], d. split; [reflexivity|]. split; [exact Hp|exact Hr].
  - cbn [dstep a_step]. destruct (dec_next_refines bm s Hs d a Hr Hi) as (d1 & -> & Hr1 & Hp1). cbn [obind].
    pose proof (a_step_inv (txt s) (blen (txt s)) ONext a Hi) as Hi1. cbn [a_step] in Hi1.
    destruct (a_next a) as [x a1]. cbn [fst snd] in *.
    assert (Hp1' : peeked (chunks d1) = None) by (rewrite Hp1; destruct (current_chunk d); [reflexivity|exact Hp]).
    destruct (IH d1 a1 Hr1 Hi1 Hp1') as (rs & d' & -> & Hp' & Hr'). cbn [obind].
    exists (x :: rs), d'. split; [reflexivity|]. split; [exact Hp'|].
    destruct (a_run (blen (txt s)) (repeat ONext n) a1). exact Hr'.
Qed.

Lemma a_words_length T a : a_inv T a -> (List.length (a_words a) <= List.length (text_words T))%nat.
Proof.
  intros (pre & H & Hc). unfold text_words. rewrite H, flat_map_app, app_length.
  destruct a as [cur rem]. unfold a_words. cbn [fst snd] in *. rewrite app_length.
  destruct Hc as [->|(pre' & o & c & done & -> & Hs)]; [cbn [List.length]; lia|].
  rewrite flat_map_app, app_length. cbn [flat_map fst snd]. rewrite app_nil_r, Hs, app_length. lia.
Qed.

Lemma collect_from bm s ops rs d : s_len s < 4294967296 -> drun bm ops (decompose s) = Ret (rs, d) ->
  exists a, refines s d a /\ a_inv (txt s) a /\
    (exists rs', a_run (blen (txt s)) ops (a_init (txt s)) = (rs', a)) /\
    forall k, (List.length (txt s) < k)%nat -> dec_collect bm k d = Ret (a_words a).
Proof.
  intros H Hd. assert (Hs : blen (txt s) <= U32MAX) by (unfold s_len, U32MAX in *; lia).
  destruct (history_spec bm s Hs ops) as (d' & Hd' & Hr). rewrite Hd in Hd'. injection Hd' as _ <-.
  pose proof (a_run_inv (txt s) (blen (txt s)) ops _ (a_inv_init (txt s))) as Hi.
  destruct (a_run (blen (txt s)) ops (a_init (txt s))) as [rs' a] eqn:E. cbn [snd] in *.
  exists a. split; [exact Hr|]. split; [exact Hi|]. split; [exists rs'; reflexivity|].
  intros k Hk. apply (dec_collect_spec bm s Hs); auto.
  pose proof (a_words_length _ _ Hi). pose proof (text_words_length (txt s)). lia.
Qed.

Lemma size_hint_next_only bm s n rs d k : s_len s < 4294967296 ->
  drun bm (repeat ONext n) (decompose s) = Ret (rs, d) -> (List.length (txt s) < k)%nat ->
  exists ws, dec_collect bm k d = Ret ws /\ dec_size_hint d <= N.of_nat (List.length ws).
Proof.
  intros H Hd Hk. assert (Hs : blen (txt s) <= U32MAX) by (unfold s_len, U32MAX in *; lia).
  destruct (collect_from bm s _ rs d H Hd) as (a & Hr & Hi & _ & Hcol).
  destruct (drun_next_peeked bm s n Hs _ _ (refines_init s) (a_inv_init (txt s)) eq_refl) as (rs2 & d2 & Hd2 & Hp & _).
  rewrite Hd in Hd2. injection Hd2 as _ <-.
  exists (a_words a). split; [apply Hcol; exact Hk|]. rewrite (refines_hint s d a Hr Hp).
  unfold a_words. rewrite app_length. lia.
Qed.

Lemma size_hint_any bm s ops rs d k : s_len s < 4294967296 ->
  drun bm ops (decompose s) = Ret (rs, d) -> (List.length (txt s) < k)%nat ->
  exists ws, dec_collect bm k d = Ret ws /\ dec_size_hint d <= N.of_nat (List.length ws) + 1.
Proof.
  intros H Hd Hk. destruct (collect_from bm s _ rs d H Hd) as (a & Hr & Hi & _ & Hcol).
  exists (a_words a). split; [apply Hcol; exact Hk|].
  destruct Hr as (_ & Hc & _ & _). unfold dec_size_hint, pk_size_hint. rewrite Hc.
  unfold a_words. rewrite app_length. destruct (peeked (chunks d)) as [[?|]|]; lia.
Qed.

(** ** C09 *)
Definition shift_a (n : N) (a : astate) : astate :=
  (map (shift_span n) (fst a), map (fun oc => (n + fst oc, snd oc)) (snd a)).

Lemma chunks_off_shift n : forall cs o, chunks_off cs (n + o) = map (fun oc => (n + fst oc, snd oc)) (chunks_off cs o).
Proof.
  induction cs as [|c cs IH]; intros o; cbn [chunks_off map fst snd]; [reflexivity|].
  rewrite <- IH. do 2 f_equal. lia.
Qed.

Lemma a_find_shift n : forall rem,
  a_find (map (fun oc => (n + fst oc, snd oc)) rem) =
  (option_map (shift_span n) (fst (a_find rem)), shift_a n (snd (a_find rem))).
Proof.
  induction rem as [|[o c] l IH]; cbn [map a_find fst snd]; [reflexivity|].
  rewrite spans_of_shift. destruct (spans_of o (chunk_words c)) as [|w r]; cbn [map]; [exact IH|reflexivity].
Qed.

Lemma a_step_shift n T op a : a_inv T a ->
  a_step (n + blen T) op (shift_a n a) =
  (option_map (shift_span n) (fst (a_step (blen T) op a)), shift_a n (snd (a_step (blen T) op a))).
Proof.
  intros Hi. destruct a as [cur rem]. unfold shift_a at 1. cbn [fst snd]. destruct op; cbn [a_step].
  - destruct cur as [|w r]; cbn [map a_next]; [apply a_find_shift|reflexivity].
  - destruct cur as [|w r]; cbn [map a_nnd].
    + destruct rem as [|[o c] l]; cbn [map fst snd option_map]; [reflexivity|].
      unfold shift_span, shift_a. cbn [sp_start sp_end fst snd map]. rewrite N.add_assoc. reflexivity.
    + destruct rem as [|[o c] l]; cbn [map fst snd option_map]; [reflexivity|].
      destruct (inv_current T _ w r Hi eq_refl) as (x & pre & m & post & tail & z & _ & _ & _ & _ & _ & _ & Hz).
      cbn [snd] in Hz. destruct Hz as [Ho _].
      unfold shift_span, shift_a. cbn [sp_start sp_end fst snd map].
      replace (n + o - 1) with (n + (o - 1)) by lia. reflexivity.
Qed.

Lemma a_run_shift n T : forall ops a, a_inv T a ->
  a_run (n + blen T) ops (shift_a n a) =
  (map (option_map (shift_span n)) (fst (a_run (blen T) ops a)), shift_a n (snd (a_run (blen T) ops a))).
Proof.
  induction ops as [|op ops IH]; intros a Hi; cbn [a_run]; [reflexivity|].
  rewrite a_step_shift by exact Hi. pose proof (a_step_inv T (blen T) op a Hi) as Hi1.
  destruct (a_step (blen T) op a) as [x a1]. cbn [fst snd] in *. rewrite IH by exact Hi1.
  destruct (a_run (blen T) ops a1) as [xs a2]. reflexivity.
Qed.

Lemma a_next_gap T a v o c l : a_inv T a -> a_next a = (Some v, ([], (o, c) :: l)) -> sp_end v < o.
Proof.
  intros Hi H. destruct a as [cur rem].
  assert (HH : exists a0, a_inv T a0 /\ fst a0 = [v] /\ snd a0 = (o, c) :: l).
  { destruct cur as [|w r]; cbn [a_next] in H.
    - assert (G : forall rem pre, chunks_of T = pre ++ rem -> a_find rem = (Some v, ([], (o, c) :: l)) ->
                 exists a0, a_inv T a0 /\ fst a0 = [v] /\ snd a0 = (o, c) :: l).
      { clear. induction rem as [|[o1 c1] l1 IH]; intros pre Hp; cbn [a_find]; [discriminate|].
        destruct (spans_of o1 (chunk_words c1)) as [|w r] eqn:E.
        - apply (IH (pre ++ [(o1, c1)])). rewrite <- app_assoc. exact Hp.
        - intros [= -> -> ->]. exists ([v], (o, c) :: l). split; [|split; reflexivity].
          exists (pre ++ [(o1, c1)]). split; [rewrite <- app_assoc; exact Hp|]. right.
          exists pre, o1, c1, []. split; [reflexivity|exact E]. }
      destruct Hi as (pre & Hp & _). apply (G rem pre Hp H).
    - injection H as -> -> ->. exists ([v], (o, c) :: l). split; [exact Hi|split; reflexivity]. }
  destruct HH as (a0 & Hi0 & H1 & H2).
  destruct (inv_current T a0 v [] Hi0 H1) as (x & pre & m & post & tail & z & _ & _ & _ & _ & -> & _ & Hz).
  rewrite H2 in Hz. destruct Hz as [-> _]. cbn [sp_end]. rewrite !blen_app. lia.
Qed.

Lemma drun_app bm ops1 ops2 : forall d,
  drun bm (ops1 ++ ops2) d =
  let! (r1, d1) := drun bm ops1 d in let! (r2, d2) := drun bm ops2 d1 in Ret (r1 ++ r2, d2).
Proof.
  induction ops1 as [|op ops IH]; intros d; cbn [app drun obind].
  - destruct (drun bm ops2 d) as [[r2 d2]| |]; reflexivity.
  - destruct (dstep bm op d) as [[x d1]| |]; cbn [obind]; [|reflexivity|reflexivity]. rewrite IH.
    destruct (drun bm ops d1) as [[r1 d2]| |]; cbn [obind]; [|reflexivity|reflexivity].
    destruct (drun bm ops2 d2) as [[r2 d3]| |]; reflexivity.
Qed.

Lemma nodec_resumes bm s ops rs v d w d1 : s_len s < 4294967296 ->
  drun bm (ops ++ [ONext]) (decompose s) = Ret (rs ++ [Some v], d) ->
  dec_next bm d = Ret (Some w, d1) -> sp_end v = sp_start w ->
  exists x y z, txt s = x ++ y ++ z /\ blen x = sp_start w /\ no_sep y /\
    (z = [] \/ exists c z', z = c :: z' /\ is_sep c) /\
    exists d2, next_no_decomposition bm d = Ret (Some (mkspan (blen x) (blen x + blen y)), d2) /\
      forall ops', match z with
        | [] => exists d3, drun bm ops' d2 = Ret (repeat None (List.length ops'), d3)
        | _ :: z' => forall q, exists rs' d3 d4,
            drun bm ops' (decompose (mkstr q z')) = Ret (rs', d4) /\
            drun bm ops' d2 = Ret (map (option_map (shift_span (blen x + blen y + 1))) rs', d3)
        end.
Proof.
  intros H Hd Hw Hvw. assert (Hs : blen (txt s) <= U32MAX) by (unfold s_len, U32MAX in *; lia).
  destruct (history_spec bm s Hs (ops ++ [ONext])) as (d' & Hd' & Hr). rewrite Hd in Hd'. injection Hd' as Hrs <-.
  pose proof (a_run_inv (txt s) (blen (txt s)) (ops ++ [ONext]) _ (a_inv_init (txt s))) as Hi.
  rewrite a_run_app in *.
  pose proof (a_run_inv (txt s) (blen (txt s)) ops _ (a_inv_init (txt s))) as Hi0.
  destruct (a_run (blen (txt s)) ops (a_init (txt s))) as [x1 a0]. cbn [snd] in Hi0.
  cbn [a_run a_step] in *. destruct (a_next a0) as [v0 a] eqn:Ea. cbn [fst snd] in *.
  apply app_inj_tail in Hrs as [_ <-].
  destruct (dec_next_refines bm s Hs d a Hr Hi) as (d1' & Hn & _). rewrite Hw in Hn. injection Hn as Hn _.
  destruct a as [cur rem]. destruct cur as [|w0 cur].
  { exfalso. destruct rem as [|[o c] l]; [cbn in Hn; discriminate|].
    pose proof (a_next_gap _ _ _ _ _ _ Hi0 Ea) as Hgap. cbn [a_next fst] in Hn.
    destruct (a_find ((o, c) :: l)) as [w' a'] eqn:Ef. cbn [fst] in Hn. subst w'.
    destruct (a_find_step _ _ _ _ Hi Ef) as (_ & Hpos & _). cbn [a_pos] in Hpos. lia. }
  cbn [a_next fst] in Hn. injection Hn as Hw0. subst w0.
  destruct (inv_current _ _ w cur Hi eq_refl) as (x & pre & m & post & tail & z & HT & Htail & Hns & Hcw & Hwsp & Hcur & Hz).
  cbn [snd] in Hz.
  assert (HbT : blen (txt s) = blen x + (blen (List.concat pre) + (blen m + (blen (List.concat post) + (blen tail + blen z)))))
    by (rewrite HT, !blen_app; reflexivity).
  exists (x ++ List.concat pre), (m ++ List.concat post ++ tail), z.
  split; [rewrite HT, <- !app_assoc; reflexivity|].
  split; [rewrite Hwsp, blen_app; reflexivity|].
  split; [apply no_sep_spec; apply Forall_app in Hns; apply Hns|].
  destruct (nnd_refines bm s Hs d (w :: cur, rem) Hr Hi) as (d2 & Hd2 & Hr2).
  pose proof (a_step_inv (txt s) (blen (txt s)) ONoDec _ Hi) as Hi2. cbn [a_step a_nnd fst snd] in *.
  assert (He : (match rem with [] => blen (txt s) | (o, _) :: _ => o - 1 end)
                   = blen (x ++ List.concat pre) + blen (m ++ List.concat post ++ tail)).
  { rewrite !blen_app. destruct rem as [|[o' c'] l']; [subst z; cbn [blen] in HbT; lia|].
    destruct Hz as [-> _]. rewrite !blen_app. lia. }
  rewrite He in Hd2.
  assert (Hst : sp_start w = blen (x ++ List.concat pre)) by (rewrite Hwsp, blen_app; reflexivity).
  rewrite Hst in Hd2.
  destruct rem as [|[o' c'] l'].
  - subst z. split; [left; reflexivity|]. exists d2. split; [exact Hd2|]. intros ops'.
    destruct (drun_refines bm s Hs ops' d2 ([], []) Hr2 Hi2) as (d3 & Hd3 & _).
    rewrite a_run_done in Hd3. exists d3. exact Hd3.
  - destruct Hz as (Ho & c & z' & -> & Hc & Hrem). apply is_sep_spec in Hc.
    split; [right; exists c, z'; split; [reflexivity|exact Hc]|].
    exists d2. split; [exact Hd2|]. intros ops' q.
    assert (Hcl : clen c = 1) by (apply sep_clen, is_sep_spec; exact Hc).
    rewrite blen_cons, Hcl in HbT.
    assert (Hz' : blen (txt (mkstr q z')) <= U32MAX) by (cbn [txt]; lia).
    destruct (history_spec bm (mkstr q z') Hz' ops') as (d4 & Hd4 & _). cbn [txt] in Hd4.
    destruct (drun_refines bm s Hs ops' d2 _ Hr2 Hi2) as (d3 & Hd3 & _).
    exists (fst (a_run (blen z') ops' (a_init z'))), d3, d4. split; [exact Hd4|].
    rewrite Hd3.
    replace (([] : list span), (o', c') :: l') with (shift_a o' (a_init z')).
    2: { unfold shift_a, a_init, chunks_of. cbn [fst snd map]. rewrite <- chunks_off_shift, N.add_0_r, <- Hrem. reflexivity. }
    replace (blen (txt s)) with (o' + blen z') by (rewrite Ho, !blen_app; lia).
    rewrite a_run_shift by apply a_inv_init. cbn [fst].
    replace (blen (x ++ List.concat pre) + blen (m ++ List.concat post ++ tail) + 1) with o'; [reflexivity|].
    rewrite Ho, !blen_app. lia.
Qed.

Lemma separators_interchangeable bm p p' a b s s' : is_sep s -> is_sep s' -> blen (a ++ s :: b) < 4294967296 ->
  decompose_all bm (mkstr p (a ++ s :: b)) = decompose_all bm (mkstr p' (a ++ s' :: b)).
Proof.
  intros Hs Hs' Hl.
  assert (E : forall c, is_sep c -> clen c = 1)
    by (intros c Hc; apply sep_clen, is_sep_spec; exact Hc).
  assert (Hl' : blen (a ++ s' :: b) < 4294967296).
  { rewrite !blen_app, !blen_cons in *.
    rewrite (E s Hs) in Hl. rewrite (E s' Hs'). exact Hl. }
  assert (La : s_len (mkstr 0 a) < 4294967296 /\ s_len (mkstr 0 b) < 4294967296).
  { unfold s_len; cbn [txt]. rewrite blen_app, blen_cons in Hl. lia. }
  destruct La as [La Lb].
  destruct (decompose_total bm (mkstr 0 a) La) as [wa Ha].
  destruct (decompose_total bm (mkstr 0 b) Lb) as [wb Hb].
  rewrite (decompose_separator bm p 0 0 a s b wa wb Hs Hl Ha Hb).
  rewrite (decompose_separator bm p' 0 0 a s' b wa wb Hs' Hl' Ha Hb). reflexivity.
Qed.


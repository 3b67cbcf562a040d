(** ClassifyFacts.v -- [classify] in closed form: look the spelling up in the
    table when it has at most 16 bytes, else ask the rules. *)
From Verif Require Import Base Utf8 Peg Rules RulesApi PegMeta RulesTotal PegChars PegSim Selmaho ClassifyTable Classify.
From Coq Require Import Lia Arith ZArith ZifyN ZifyBool.
Open Scope N_scope.

Ltac Zify.zify_post_hook ::= Z.div_mod_to_equations.

Lemma ltb_t a b : a < b -> (a <? b) = true. Proof. apply N.ltb_lt. Qed.
Lemma ltb_f a b : b <= a -> (a <? b) = false. Proof. apply N.ltb_ge. Qed.
Lemma leb_t a b : a <= b -> (a <=? b) = true. Proof. apply N.leb_le. Qed.
Lemma leb_f a b : b < a -> (a <=? b) = false. Proof. apply N.leb_gt. Qed.

Lemma cont_ok x : x < 64 -> cont (128 + x) = true.
Proof. intros H. unfold cont. rewrite leb_t, ltb_t by lia. reflexivity. Qed.

Definition ocons (c : char) (r : option (list char)) : option (list char) :=
  match r with Some l => Some (c :: l) | None => None end.

Lemma from_utf8_1 b r : b < 128 -> from_utf8 (b :: r) = ocons b (from_utf8 r).
Proof. intros H. cbn [from_utf8]. rewrite ltb_t by exact H. reflexivity. Qed.

Lemma from_utf8_2 b0 b1 r : 194 <= b0 < 224 -> cont b1 = true ->
  from_utf8 (b0 :: b1 :: r) = ocons ((b0 - 192) * 64 + (b1 - 128)) (from_utf8 r).
Proof.
  intros H Hc. cbn [from_utf8]. rewrite ltb_f, leb_t, ltb_t, Hc by lia. reflexivity.
Qed.

Lemma from_utf8_3 b0 b1 b2 r c : 224 <= b0 < 240 -> cont b1 = true -> cont b2 = true ->
  c = (b0 - 224) * 4096 + (b1 - 128) * 64 + (b2 - 128) -> 2048 <= c -> is_scalar c = true ->
  from_utf8 (b0 :: b1 :: b2 :: r) = ocons c (from_utf8 r).
Proof.
  intros H Hc Hc2 -> H1 H2. cbn [from_utf8].
  rewrite (ltb_f b0 128), (ltb_f b0 224), (leb_t 224 b0), (ltb_t b0 240) by lia.
  rewrite andb_false_r. cbn [andb].
  rewrite Hc, Hc2, H2, (leb_t 2048) by exact H1. reflexivity.
Qed.

Lemma from_utf8_4 b0 b1 b2 b3 r c : 240 <= b0 < 245 -> cont b1 = true -> cont b2 = true -> cont b3 = true ->
  c = (b0 - 240) * 262144 + (b1 - 128) * 4096 + (b2 - 128) * 64 + (b3 - 128) -> 65536 <= c -> is_scalar c = true ->
  from_utf8 (b0 :: b1 :: b2 :: b3 :: r) = ocons c (from_utf8 r).
Proof.
  intros H Hc Hc2 Hc3 -> H1 H2. cbn [from_utf8].
  rewrite (ltb_f b0 128), (ltb_f b0 224), (ltb_f b0 240), (leb_t 240 b0), (ltb_t b0 245) by lia.
  rewrite !andb_false_r. cbn [andb].
  rewrite Hc, Hc2, Hc3, H2, (leb_t 65536) by exact H1. reflexivity.
Qed.

Lemma from_utf8_enc c r : is_scalar c = true -> from_utf8 (enc c ++ r) = ocons c (from_utf8 r).
Proof.
  intros Hs. unfold enc.
  assert (Hm : c < 1114112) by (unfold is_scalar in Hs; lia).
  assert (M : forall x, x mod 64 < 64) by (intros; apply N.mod_lt; discriminate).
  destruct (N.ltb_spec c 128); [apply from_utf8_1; assumption|].
  destruct (N.ltb_spec c 2048); [|destruct (N.ltb_spec c 65536)]; cbn [app].
  - rewrite from_utf8_2; [f_equal; lia|lia|apply cont_ok, M].
  - apply from_utf8_3; try apply cont_ok, M; try lia. exact Hs.
  - apply from_utf8_4; try apply cont_ok, M; try lia. exact Hs.
Qed.

Definition scalars (t : list char) : Prop := Forall (fun c => is_scalar c = true) t.

Lemma from_utf8_bytes t : scalars t -> from_utf8 (bytes_of t) = Some t.
Proof.
  induction 1 as [|c t Hc Ht IH]; [reflexivity|].
  cbn [bytes_of flat_map]. rewrite from_utf8_enc by exact Hc.
  unfold bytes_of in IH. rewrite IH. reflexivity.
Qed.

Lemma enc_length c : N.of_nat (List.length (enc c)) = clen c.
Proof. unfold enc, clen. destruct (c <? 128), (c <? 2048), (c <? 65536); reflexivity. Qed.

Lemma bytes_length t : N.of_nat (List.length (bytes_of t)) = blen t.
Proof.
  induction t as [|c t IH]; [reflexivity|]. cbn [bytes_of flat_map blen].
  rewrite app_length, Nat2N.inj_add, enc_length. unfold bytes_of in IH. rewrite IH. reflexivity.
Qed.

Lemma enc_ge c b : 128 <= c -> In b (enc c) -> 128 <= b.
Proof.
  intros H. unfold enc. rewrite (ltb_f c 128) by exact H.
  destruct (c <? 2048), (c <? 65536); cbn [In]; intros; repeat (destruct H0 as [<-|H0]; [lia|]); contradiction.
Qed.

(** The bytes compared with the table are those of the spelling. *)
Lemma cmavo_bytes_spell t : cmavo_bytes t = bytes_of (spell t).
Proof.
  unfold cmavo_bytes.
  induction t as [|c t IH]; [reflexivity|].
  cbn [bytes_of flat_map]. rewrite filter_app, map_app. unfold bytes_of in IH at 1. rewrite IH.
  unfold spell_by. cbn [filter]. unfold is_comma, COMMA.
  destruct (N.ltb_spec c 128) as [H|H].
  - unfold enc. rewrite ltb_t by exact H. cbn [filter].
    destruct (N.eqb_spec c 44); [reflexivity|]. cbn [negb map bytes_of flat_map].
    unfold norm at 2. destruct (N.eqb_spec c 104) as [->|E]; [reflexivity|].
    unfold enc. rewrite ltb_t by exact H. reflexivity.
  - destruct (N.eqb_spec c 44); [lia|]. cbn [negb map bytes_of flat_map].
    replace (norm c) with c by (unfold norm; destruct (N.eqb_spec c 104); [lia|reflexivity]).
    f_equal.
    assert (E1 : filter (fun b => negb (b =? 44)) (enc c) = enc c).
    { pose proof (enc_ge c) as G. specialize (fun b => G b H). induction (enc c) as [|b l IHl]; [reflexivity|].
      cbn [filter]. destruct (N.eqb_spec b 44) as [->|]; [specialize (G 44 (or_introl eq_refl)); lia|].
      cbn [negb]. rewrite IHl; [reflexivity|]. intros; apply G; right; assumption. }
    rewrite E1. pose proof (enc_ge c) as G. specialize (fun b => G b H).
    clear E1. induction (enc c) as [|b l IHl]; [reflexivity|]. cbn [map].
    destruct (N.eqb_spec b 104) as [->|]; [specialize (G 104 (or_introl eq_refl)); lia|].
    rewrite IHl; [reflexivity|]. intros; apply G; right; assumption.
Qed.

Lemma set_nth_app (a l : list N) (x b : N) : set_nth (a ++ x :: l) (List.length a) b = Some (a ++ b :: l).
Proof. induction a as [|y a IH]; [reflexivity|]. cbn. rewrite IH. reflexivity. Qed.

Lemma set_nth_end (a : list N) (b : N) : set_nth a (List.length a) b = None.
Proof. induction a as [|y a IH]; [reflexivity|]. cbn. rewrite IH. reflexivity. Qed.

Lemma fill_fits bs : forall a l reached, (List.length bs <= List.length l)%nat ->
  fill bs (List.length a) (a ++ l) reached =
  (a ++ bs ++ skipn (List.length bs) l, match bs with [] => reached | _ => (List.length a + List.length bs - 1)%nat end).
Proof.
  induction bs as [|b bs IH]; intros a l reached H; [reflexivity|].
  destruct l as [|x l]; [cbn in H; lia|]. cbn [fill]. rewrite set_nth_app.
  replace (S (List.length a)) with (List.length (a ++ [b])) by (rewrite app_length; cbn; lia).
  replace (a ++ b :: l) with ((a ++ [b]) ++ l) by (rewrite <- app_assoc; reflexivity).
  rewrite IH by (cbn in H; lia). rewrite <- app_assoc. f_equal.
  rewrite app_length. cbn [List.length]. destruct bs; cbn [List.length]; lia.
Qed.

Lemma fill_over bs : forall a l reached, (List.length l < List.length bs)%nat ->
  exists buf, fill bs (List.length a) (a ++ l) reached = (buf, (List.length a + List.length l)%nat).
Proof.
  induction bs as [|b bs IH]; intros a l reached H; [cbn in H; lia|].
  destruct l as [|x l]; cbn [fill].
  - rewrite app_nil_r, set_nth_end. eexists. cbn. rewrite Nat.add_0_r. reflexivity.
  - rewrite set_nth_app.
    replace (S (List.length a)) with (List.length (a ++ [b])) by (rewrite app_length; cbn; lia).
    replace (a ++ b :: l) with ((a ++ [b]) ++ l) by (rewrite <- app_assoc; reflexivity).
    destruct (IH (a ++ [b]) l (List.length a)) as [buf ->]; [cbn in H; lia|].
    exists buf. rewrite app_length. cbn. f_equal. lia.
Qed.

(** What is looked up in the table. *)
Definition direct_key (t : list char) : option (list char) :=
  match spell t with
  | [] => Some [0]
  | _ => if blen (spell t) <=? 16 then Some (spell t) else None
  end.

Lemma scalars_spell t : scalars t -> scalars (spell t).
Proof.
  unfold scalars, spell_by. rewrite !Forall_forall. intros H c Hc. apply in_map_iff in Hc as (x & <- & Hx).
  apply filter_In in Hx as [Hx _]. unfold norm. destruct (x =? 104); [reflexivity|]. apply H, Hx.
Qed.

Lemma transform_spec t : scalars t ->
  transform_for_direct_cmavo_check t (repeat 0 16) = Ret (direct_key t).
Proof.
  intros Hs. unfold transform_for_direct_cmavo_check, direct_key. rewrite cmavo_bytes_spell.
  pose proof (bytes_length (spell t)) as Hl.
  destruct (N.leb_spec (blen (spell t)) 16) as [H|H].
  - pose proof (fill_fits (bytes_of (spell t)) [] (repeat 0 16) 0) as F. cbn [List.length app] in F.
    rewrite F by (rewrite repeat_length; lia). clear F. rewrite repeat_length.
    destruct (spell t) as [|c u] eqn:E; [vm_compute; reflexivity|].
    set (bs := bytes_of (c :: u)) in *.
    assert (Hne : (1 <= List.length bs)%nat) by (rewrite blen_cons in Hl; pose proof (clen_pos c); lia).
    destruct bs as [|b0 bs'] eqn:Eb; [cbn in Hne; lia|].
    rewrite (proj2 (Nat.leb_gt _ _)) by lia.
    replace (S (0 + List.length (b0 :: bs') - 1)) with (List.length (b0 :: bs')) by lia.
    rewrite firstn_app, Nat.sub_diag, firstn_all, firstn_O, app_nil_r.
    rewrite <- Eb. unfold bs. rewrite <- E, from_utf8_bytes by (apply scalars_spell; exact Hs). reflexivity.
  - destruct (fill_over (bytes_of (spell t)) [] (repeat 0 16) 0) as [buf F]; [rewrite repeat_length; lia|].
    cbn [List.length app] in F. rewrite F. cbn [repeat List.length Nat.leb plus].
    destruct (spell t); [cbn in H; lia|reflexivity].
Qed.

Definition general_class (t : list char) : Selmaho :=
  if accepts_all N_cmevla t then S_Cmevla else
  if accepts_all N_cmavo_minimal t then S_UnknownCmavo else
  if accepts_all N_gismu t then S_Gismu else
  if accepts_all N_fuhivla t then S_Fuhivla else
  if accepts_all N_lujvo_minimal t then S_Lujvo else S_AnyText.

Lemma classify_generally_spec w : classify_generally w = Ret (general_class (txt w)).
Proof.
  unfold classify_generally, general_class.
  destruct (call_rule_is_some N_cmevla w) as (o1 & -> & _ & H1).
  destruct (call_rule_is_some N_cmavo_minimal w) as (o2 & -> & _ & H2).
  destruct (call_rule_is_some N_gismu w) as (o3 & -> & _ & H3).
  destruct (call_rule_is_some N_fuhivla w) as (o4 & -> & _ & H4).
  destruct (call_rule_is_some N_lujvo_minimal w) as (o5 & -> & _ & H5).
  cbn [obind]. rewrite H1, H2, H3, H4, H5.
  destruct (accepts_all N_cmevla (txt w)), (accepts_all N_cmavo_minimal (txt w)), (accepts_all N_gismu (txt w)),
    (accepts_all N_fuhivla (txt w)), (accepts_all N_lujvo_minimal (txt w)); reflexivity.
Qed.

(** The table entry of a spelling, if it is short enough to be looked up. *)
Definition entry (t : list char) : option (Selmaho * bool) :=
  if blen (spell t) <=? 16 then table_lookup table_arms (spell t) else None.

Definition class_of (t : list char) : Selmaho * bool :=
  match entry t with
  | Some (s, e) => (s, is_fundamentally_experimental s || e)
  | None => (general_class t, is_fundamentally_experimental (general_class t))
  end.

Lemma lookup_nul : table_lookup table_arms [0] = None.
Proof. vm_compute. reflexivity. Qed.
Lemma lookup_empty : table_lookup table_arms [] = None.
Proof. vm_compute. reflexivity. Qed.

Theorem classify_spec w : scalars (txt w) -> classify w = Ret (class_of (txt w)).
Proof.
  intros Hs. unfold classify, class_of, entry. rewrite transform_spec by exact Hs. cbn [obind].
  unfold direct_key. destruct (spell (txt w)) as [|c u] eqn:E.
  - rewrite lookup_nul, classify_generally_spec. cbn [obind blen]. cbn [N.leb N.compare].
    rewrite lookup_empty, orb_false_r. reflexivity.
  - destruct (_ <=? 16).
    + destruct (table_lookup table_arms (c :: u)) as [[s e]|]; [reflexivity|].
      rewrite classify_generally_spec. cbn [obind]. rewrite orb_false_r. reflexivity.
    + rewrite classify_generally_spec. cbn [obind]. rewrite orb_false_r. reflexivity.
Qed.

Lemma class_of_sim t t' : sim t t' -> class_of t = class_of t'.
Proof.
  intros H. unfold class_of, entry. rewrite (proj1 H).
  assert (G : general_class t = general_class t').
  { unfold general_class. rewrite !(fun x => accepts_all_sim norm good_norm_norm x t t' H). reflexivity. }
  rewrite G. reflexivity.
Qed.

(** Classification does not depend on commas (except at the end) or on how the
    apostrophe is written, also for chars that are not scalar values: it is
    enough that [classify] returned. *)
Lemma general_class_sim t t' : sim t t' -> general_class t = general_class t'.
Proof. intros H. unfold general_class. rewrite !(fun x => accepts_all_sim norm good_norm_norm x t t' H). reflexivity. Qed.

Lemma classify_sim p p' t t' : sim t t' -> classify (mkstr p t) = classify (mkstr p' t').
Proof.
  intros H. unfold classify, transform_for_direct_cmavo_check. rewrite !cmavo_bytes_spell. cbn [txt].
  rewrite (proj1 H). destruct (fill _ _ _ _) as [buf reached].
  assert (G : classify_generally (mkstr p t) = classify_generally (mkstr p' t'))
    by (rewrite !classify_generally_spec; cbn [txt]; rewrite (general_class_sim t t' H); reflexivity).
  rewrite G. reflexivity.
Qed.

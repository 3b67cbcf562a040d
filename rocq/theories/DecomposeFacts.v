(** DecomposeFacts.v -- one chunk: [decompose_single] computes [chunk_words];
    and facts about [split_seps] and [chunk_words]. *)
From Verif Require Import Base Peg Rules RulesApi PegMeta RulesTotal PegChars Span Decompose DecomposeSpec.
From Coq Require Import Lia Arith.

Lemma before_app m r : before (m ++ r) r = m.
Proof.
  unfold before. rewrite app_length. replace (List.length m + List.length r - List.length r)%nat with (List.length m) by lia.
  rewrite firstn_app, Nat.sub_diag, firstn_all, firstn_O, app_nil_r. reflexivity.
Qed.

Definition word_like (m : list char) : Prop :=
  exists a c, m = a ++ [c] /\ is_comma c = false /\ mem_char c LOJBAN = true /\
              Forall (fun x => is_comma x = true \/ mem_char x LOJBAN = true) a.

Lemma fall_off_ev_some t r : fall_off_ev t = Some r ->
  t = before t r ++ r /\ word_like (before t r) /\ (List.length r < List.length t)%nat.
Proof.
  unfold fall_off_ev. intros H.
  assert (HH : exists m c, t = m ++ c :: r /\ is_comma c = false /\ mem_char c LOJBAN = true /\
              Forall (fun x => is_comma x = true \/ mem_char x LOJBAN = true) m).
  { destruct (ev (Call N_cmavo_minimal) t) as [r'|] eqn:E.
    - injection H as <-. eapply ev_eats_strict; [|exact E]. vm_compute; reflexivity.
    - eapply ev_eats_strict; [|exact H]. vm_compute; reflexivity. }
  destruct HH as (m & c & -> & Hc & HcA & Hm).
  change (c :: r) with ([c] ++ r). rewrite app_assoc, before_app.
  split; [reflexivity|]. split; [exists m, c; auto|]. rewrite !app_length. cbn [List.length]. lia.
Qed.

Lemma fall_off_spec s :
  match fall_off_ev (txt s) with
  | None => fall_off s = Ret None
  | Some r => fall_off s = Ret (Some (mkstr (ptr s) (before (txt s) r),
                                      mkstr (ptr s + blen (before (txt s) r)) r))
  end.
Proof.
  unfold fall_off_ev, fall_off.
  pose proof (call_rule_spec N_cmavo_minimal s) as H1.
  destruct (ev (Call N_cmavo_minimal) (txt s)) as [r|].
  - destruct H1 as (m & Hs & ->). cbn [obind]. rewrite Hs, before_app. reflexivity.
  - rewrite H1. cbn [obind].
    pose proof (call_rule_spec N_explicitly_stressed_brivla_minimal s) as H2.
    destruct (ev (Call N_explicitly_stressed_brivla_minimal) (txt s)) as [r|].
    + destruct H2 as (m & Hs & ->). rewrite Hs, before_app. reflexivity.
    + exact H2.
Qed.

Lemma post_word_spec s : post_word s = Ret (post_word_ev (txt s)).
Proof.
  unfold post_word, post_word_ev.
  destruct (call_rule_is_some N_nucleus s) as (o1 & -> & H1 & _).
  destruct (call_rule_is_some N_gismu s) as (o2 & -> & H2 & _).
  destruct (call_rule_is_some N_fuhivla s) as (o3 & -> & H3 & _).
  destruct (call_rule_is_some N_lujvo_minimal s) as (o4 & -> & H4 & _).
  destruct (call_rule_is_some N_cmavo_minimal s) as (o5 & -> & H5 & _).
  cbn [obind]. rewrite H1, H2, H3, H4, H5.
  destruct (accepts N_nucleus (txt s)), (accepts N_gismu (txt s)), (accepts N_fuhivla (txt s)),
    (accepts N_lujvo_minimal (txt s)), (accepts N_cmavo_minimal (txt s)); reflexivity.
Qed.

Lemma to_u32_ok x : x <= U32MAX -> to_u32 x = Ret x.
Proof. intros H. unfold to_u32. apply N.leb_le in H. rewrite H. reflexivity. Qed.

Lemma u32_add_ok bm a b : a + b <= U32MAX -> u32_add bm a b = Ret (a + b).
Proof. intros H. unfold u32_add. apply N.leb_le in H. rewrite H. reflexivity. Qed.

Lemma from_embedded_ok bm base o w : o + blen w <= U32MAX ->
  span_from_embedded_slice bm base (mkstr (base + o) w) = Ret (mkspan o (o + blen w)).
Proof.
  intros H. unfold span_from_embedded_slice, s_len. cbn [ptr txt].
  destruct (base <=? base + o) eqn:E; [|apply N.leb_gt in E; lia].
  replace (base + o - base) with o by lia.
  rewrite !to_u32_ok by lia. cbn [obind]. rewrite u32_add_ok by lia. reflexivity.
Qed.

Lemma spans_of_app o a b : spans_of o (a ++ b) = spans_of o a ++ spans_of (o + blen (List.concat a)) b.
Proof.
  revert o; induction a as [|w a IH]; intros o; cbn [spans_of app List.concat].
  - cbn [blen]. rewrite N.add_0_r. reflexivity.
  - rewrite IH, blen_app, N.add_assoc. reflexivity.
Qed.

Lemma fall_concat k : forall t ws rest, fall k t = (ws, rest) -> t = List.concat ws ++ rest.
Proof.
  induction k as [|k IH]; intros t ws rest; cbn [fall].
  - intros [= <- <-]. reflexivity.
  - destruct (fall_off_ev t) as [r|] eqn:E.
    + destruct (fall k r) as [ws' rest'] eqn:F. intros [= <- <-].
      apply fall_off_ev_some in E as [E _]. rewrite E at 1. apply IH in F. cbn [List.concat].
      rewrite <- app_assoc, <- F. reflexivity.
    + intros [= <- <-]. reflexivity.
Qed.

Lemma fall_words k : forall t ws rest, fall k t = (ws, rest) -> Forall word_like ws.
Proof.
  induction k as [|k IH]; intros t ws rest; cbn [fall].
  - intros [= <- <-]. constructor.
  - destruct (fall_off_ev t) as [r|] eqn:E.
    + destruct (fall k r) as [ws' rest'] eqn:F. intros [= <- <-].
      apply fall_off_ev_some in E as (_ & E & _). constructor; [exact E|]. eapply IH; exact F.
    + intros [= <- <-]. constructor.
Qed.

Section BM.
Context (bm : build).

Lemma loop_S n base rest saved chunks :
  fall_off_loop bm (S n) base rest saved chunks =
  let! r := fall_off rest in
  match r with
  | None => Ret (rest, saved, chunks)
  | Some (fallen_off, new_rest) =>
      match saved with
      | Some (saved_word, _) =>
          let! sp := span_from_embedded_slice bm base saved_word in
          fall_off_loop bm n base new_rest (Some (fallen_off, rest)) (chunks ++ [sp])
      | None => fall_off_loop bm n base new_rest (Some (fallen_off, rest)) chunks
      end
  end.
Proof. reflexivity. Qed.

Lemma loop_saved k : forall base o w t chunks,
  (List.length t <= k)%nat -> o + blen w + blen t <= U32MAX ->
  let (ws, rest) := fall k t in
  fall_off_loop bm (S k) base (mkstr (base + (o + blen w)) t)
    (Some (mkstr (base + o) w, mkstr (base + o) (w ++ t))) chunks =
  Ret (mkstr (base + (o + blen (List.concat (w :: ws)))) rest,
       Some (mkstr (base + (o + blen (List.concat (removelast (w :: ws))))) (last (w :: ws) []),
             mkstr (base + (o + blen (List.concat (removelast (w :: ws))))) (last (w :: ws) [] ++ rest)),
       chunks ++ spans_of o (removelast (w :: ws))).
Proof.
  induction k as [|k IH]; intros base o w t chunks Hk Hb.
  - destruct t as [|c t]; [|cbn in Hk; lia]. cbn [fall fall_off_loop].
    pose proof (fall_off_spec (mkstr (base + (o + blen w)) [])) as H. cbn [txt] in H.
    destruct (fall_off_ev []) as [r|] eqn:E; [apply fall_off_ev_some in E as (_ & _ & E); cbn in E; lia|].
    rewrite H. cbn [obind removelast last List.concat app spans_of].
    rewrite !app_nil_r. cbn [blen]. rewrite N.add_0_r. reflexivity.
  - cbn [fall]. pose proof (fall_off_spec (mkstr (base + (o + blen w)) t)) as H. cbn [txt ptr] in H.
    destruct (fall_off_ev t) as [r|] eqn:E.
    + apply fall_off_ev_some in E as (Et & _ & El).
      specialize (IH base (o + blen w) (before t r) r (chunks ++ [mkspan o (o + blen w)])).
      destruct (fall k r) as [ws rest].
      remember (before t r) as m eqn:Em.
      assert (Hbl : blen t = blen m + blen r) by (rewrite Et, blen_app; reflexivity).
      rewrite loop_S.
      rewrite H. cbn [obind]. rewrite from_embedded_ok by lia. cbn [obind].
      replace (base + (o + blen w) + blen m) with (base + (o + blen w + blen m)) by lia.
      rewrite <- Et in IH. rewrite IH; [|lia|lia].
      change (removelast (w :: m :: ws)) with (w :: removelast (m :: ws)).
      change (last (w :: m :: ws) []) with (last (m :: ws) []).
      change (List.concat (w :: m :: ws)) with (w ++ List.concat (m :: ws)).
      change (List.concat (w :: removelast (m :: ws))) with (w ++ List.concat (removelast (m :: ws))).
      change (spans_of o (w :: removelast (m :: ws))) with (mkspan o (o + blen w) :: spans_of (o + blen w) (removelast (m :: ws))).
      rewrite !blen_app. rewrite <- app_assoc. cbn [app].
      rewrite !N.add_assoc. reflexivity.
    + cbn [fall_off_loop]. rewrite H. cbn [obind removelast last List.concat app spans_of].
      rewrite !app_nil_r. cbn [blen]. rewrite N.add_0_r. reflexivity.
Qed.

Lemma removelast_concat (w : list char) ws :
  List.concat (removelast (w :: ws)) ++ last (w :: ws) [] = List.concat (w :: ws).
Proof.
  pose proof (app_removelast_last [] (l := w :: ws)) as H.
  assert (w :: ws <> []) as Hne by discriminate. specialize (H Hne).
  rewrite H at 3. rewrite concat_app. cbn [List.concat]. rewrite app_nil_r. reflexivity.
Qed.

Theorem decompose_single_spec s : blen (txt s) <= U32MAX ->
  decompose_single bm s = Ret (spans_of 0 (chunk_words (txt s))).
Proof.
  intros Hb. unfold decompose_single, chunk_words. destruct s as [p t]. cbn [txt ptr] in *.
  destruct (simple_cmevla_check t).
  - pose proof (from_embedded_ok bm p 0 t) as H. rewrite N.add_0_r in H.
    rewrite H by lia. reflexivity.
  - destruct (fall (List.length t) t) as [ws rest] eqn:F.
    pose proof (fall_concat _ _ _ _ F) as Hcat.
    assert (Hloop : fall_off_loop bm (S (List.length t)) p (mkstr p t) None [] =
      Ret (mkstr (p + blen (List.concat ws)) rest,
           match ws with
           | [] => None
           | _ => Some (mkstr (p + blen (List.concat (removelast ws))) (last ws []),
                        mkstr (p + blen (List.concat (removelast ws))) (last ws [] ++ rest))
           end, spans_of 0 (removelast ws))).
    { pose proof (fall_off_spec (mkstr p t)) as H. cbn [txt ptr] in H.
      destruct (List.length t) as [|k] eqn:El; cbn [fall] in F; rewrite loop_S.
      - destruct t; [|discriminate]. injection F as <- <-.
        destruct (fall_off_ev []) as [r|] eqn:E; [apply fall_off_ev_some in E as (_ & _ & E); cbn in E; lia|].
        rewrite H. cbn [obind List.concat blen]. rewrite N.add_0_r. reflexivity.
      - destruct (fall_off_ev t) as [r|] eqn:E.
        + apply fall_off_ev_some in E as (Et & _ & Elr).
          destruct (fall k r) as [ws' rest'] eqn:F'. injection F as <- <-.
          rewrite H. cbn [obind].
          pose proof (loop_saved k p 0 (before t r) r []) as L. rewrite F' in L.
          rewrite !N.add_0_l, !N.add_0_r, <- Et in L.
          assert (Hbl : blen t = blen (before t r) + blen r) by (rewrite Et at 1; apply blen_app).
          rewrite L; [|lia|lia]. cbn [app]. reflexivity.
        + injection F as <- <-. rewrite H. cbn [obind List.concat blen]. rewrite N.add_0_r. reflexivity. }
    rewrite Hloop. cbn [obind].
    destruct ws as [|w ws].
    + cbn [obind List.concat blen app] in *. rewrite N.add_0_r. subst rest.
      unfold s_is_empty. cbn [txt ptr].
      assert (Htr : blen (trim_end_commas t) <= blen t).
      { clear. induction t as [|c t IH]; cbn [trim_end_commas]; [lia|].
        destruct (trim_end_commas t); [destruct (is_comma c); cbn [blen] in *; lia|]. rewrite !blen_cons in *. lia. }
      destruct (trim_end_commas t) as [|c u] eqn:Etr; [reflexivity|].
      pose proof (from_embedded_ok bm p 0 (c :: u)) as H. rewrite N.add_0_r in H.
      rewrite H by lia. reflexivity.
    + rewrite post_word_spec. cbn [obind txt].
      remember (w :: ws) as W eqn:EW.
      assert (HW : List.concat (removelast W) ++ last W [] = List.concat W) by (subst W; apply removelast_concat).
      assert (HWs : spans_of 0 (removelast W) ++ [mkspan (blen (List.concat (removelast W))) (blen (List.concat (removelast W)) + blen (last W []))] = spans_of 0 W).
      { transitivity (spans_of 0 (removelast W ++ [last W []])).
        - rewrite spans_of_app, N.add_0_l. reflexivity.
        - f_equal. symmetry. apply app_removelast_last. subst W; discriminate. }
      assert (Hbt : blen t = blen (List.concat W) + blen rest) by (rewrite Hcat; apply blen_app).
      assert (HbW : blen (List.concat W) = blen (List.concat (removelast W)) + blen (last W [])) by (rewrite <- HW; apply blen_app).
      assert (Htrim : forall l, blen (trim_end_commas l) <= blen l).
      { clear. induction l as [|c t IH]; cbn [trim_end_commas]; [lia|].
        destruct (trim_end_commas t); [destruct (is_comma c); cbn [blen] in *; lia|]. rewrite !blen_cons in *. lia. }
      destruct (post_word_ev rest).
      * rewrite from_embedded_ok by lia. cbn [obind]. rewrite HWs.
        unfold s_is_empty. cbn [txt ptr].
        destruct W as [|W0 W']; [discriminate|].
        destruct (trim_end_commas rest) as [|c u] eqn:Etr; [reflexivity|].
        pose proof (Htrim rest) as Hx. rewrite Etr in Hx.
        rewrite from_embedded_ok by lia. cbn [obind].
        rewrite spans_of_app, N.add_0_l. reflexivity.
      * cbn [obind]. unfold s_is_empty. cbn [txt ptr].
        destruct W as [|W0 W']; [discriminate|].
        destruct (trim_end_commas (last (W0 :: W') [] ++ rest)) as [|c u] eqn:Etr; [reflexivity|].
        pose proof (Htrim (last (W0 :: W') [] ++ rest)) as Hx. rewrite Etr, blen_app in Hx.
        rewrite from_embedded_ok by lia. cbn [obind].
        rewrite spans_of_app, N.add_0_l. reflexivity.
Qed.
End BM.

(** * Facts about [chunk_words] *)

Lemma trim_end_split t : exists tail, t = trim_end_commas t ++ tail /\ Forall (fun c => is_comma c = true) tail.
Proof.
  induction t as [|c t (tail & IH & Hf)]; cbn [trim_end_commas].
  - exists []. split; [reflexivity|constructor].
  - destruct (trim_end_commas t) as [|d u] eqn:E.
    + destruct (is_comma c) eqn:Ec.
      * exists (c :: tail). split; [cbn in *; congruence|constructor; assumption].
      * exists tail. split; [cbn in *; congruence|assumption].
    + exists tail. split; [|exact Hf]. rewrite <- app_comm_cons. f_equal. exact IH.
Qed.

Lemma trim_end_has t : trim_end_commas t <> [] -> exists a c, trim_end_commas t = a ++ [c] /\ is_comma c = false.
Proof.
  induction t as [|c t IH]; cbn [trim_end_commas]; [congruence|].
  destruct (trim_end_commas t) as [|d u] eqn:E.
  - destruct (is_comma c) eqn:Ec; [congruence|]. intros _. exists [], c. split; [reflexivity|exact Ec].
  - intros _. destruct IH as (a & x & -> & Hx); [discriminate|]. exists (c :: a), x. split; [reflexivity|exact Hx].
Qed.

Definition has_non_comma (w : list char) : Prop := exists c, In c w /\ is_comma c = false.

Lemma word_like_has w : word_like w -> has_non_comma w.
Proof. intros (a & c & -> & Hc & _). exists c. split; [apply in_or_app; right; left; reflexivity|exact Hc]. Qed.

Lemma simple_cmevla_has t : simple_cmevla_check t = true -> has_non_comma t.
Proof.
  unfold simple_cmevla_check. destruct (find _ (rev t)) as [c|] eqn:E; [|discriminate].
  intros _. apply find_some in E as [Hin Hc]. exists c. split; [apply in_rev; exact Hin|].
  destruct (is_comma c); [discriminate|reflexivity].
Qed.

Theorem chunk_words_tile t : exists tail,
  t = List.concat (chunk_words t) ++ tail /\ Forall (fun c => is_comma c = true) tail.
Proof.
  unfold chunk_words. destruct (simple_cmevla_check t).
  - exists []. cbn [List.concat]. rewrite !app_nil_r. split; [reflexivity|constructor].
  - destruct (fall (List.length t) t) as [ws rest] eqn:F. apply fall_concat in F.
    assert (HH : forall ws' rest', t = List.concat ws' ++ rest' -> exists tail,
      t = List.concat (match trim_end_commas rest' with [] => ws' | _ => ws' ++ [trim_end_commas rest'] end) ++ tail /\
      Forall (fun c => is_comma c = true) tail).
    { intros ws' rest' Ht. destruct (trim_end_split rest') as (tail & Hr & Hf).
      exists tail. split; [|exact Hf].
      replace (List.concat (match trim_end_commas rest' with [] => ws' | _ => ws' ++ [trim_end_commas rest'] end))
        with (List.concat ws' ++ trim_end_commas rest').
      - rewrite Ht at 1. rewrite Hr at 1. apply app_assoc.
      - destruct (trim_end_commas rest') as [|d u]; [apply app_nil_r|].
        rewrite concat_app. cbn [List.concat]. rewrite app_nil_r. reflexivity. }
    destruct ws as [|w ws]; [apply HH; exact F|].
    destruct (post_word_ev rest); [apply HH; exact F|].
    apply HH. rewrite app_assoc, removelast_concat. exact F.
Qed.

Lemma removelast_In {A} (x : A) l : In x (removelast l) -> In x l.
Proof.
  induction l as [|a l IH]; [auto|]. cbn [removelast]. destruct l as [|b l]; [intros []|].
  intros [->|H]; [left; reflexivity|right; apply IH; exact H].
Qed.

Theorem chunk_words_proper t : Forall has_non_comma (chunk_words t).
Proof.
  unfold chunk_words. destruct (simple_cmevla_check t) eqn:Es.
  - constructor; [|constructor]. apply simple_cmevla_has; exact Es.
  - destruct (fall (List.length t) t) as [ws rest] eqn:F. apply fall_words in F.
    assert (HF : Forall has_non_comma ws) by (eapply Forall_impl; [apply word_like_has|exact F]).
    assert (HH : forall ws' rest', Forall has_non_comma ws' ->
      Forall has_non_comma (match trim_end_commas rest' with [] => ws' | _ => ws' ++ [trim_end_commas rest'] end)).
    { intros ws' rest' Hw. pose proof (trim_end_has rest') as H.
      destruct (trim_end_commas rest') as [|d u]; [exact Hw|].
      apply Forall_app. split; [exact Hw|]. constructor; [|constructor].
      destruct H as (a & c & -> & Hc); [discriminate|]. exists c.
      split; [apply in_or_app; right; left; reflexivity|exact Hc]. }
    destruct ws as [|w ws]; [apply HH; exact HF|].
    destruct (post_word_ev rest); apply HH; [exact HF|].
    apply Forall_forall. intros x Hx. rewrite Forall_forall in HF. apply HF. apply removelast_In; exact Hx.
Qed.

(** a chunk with something else than commas has a word, and conversely *)
Lemma chunk_words_nil t : chunk_words t = [] <-> Forall (fun c => is_comma c = true) t.
Proof.
  split.
  - intros H. destruct (chunk_words_tile t) as (tail & Ht & Hf). rewrite H in Ht. cbn in Ht. congruence.
  - intros H. pose proof (chunk_words_proper t) as Hp. destruct (chunk_words_tile t) as (tail & Ht & _).
    destruct (chunk_words t) as [|w ws]; [reflexivity|exfalso].
    apply Forall_inv in Hp as (c & Hin & Hc). rewrite Forall_forall in H.
    assert (is_comma c = true); [|congruence]. apply H. rewrite Ht. cbn [List.concat].
    apply in_or_app; left. apply in_or_app; left. exact Hin.
Qed.

(** * Splitting *)

Lemma sep_clen c : split_or_trim_condition c = true -> clen c = 1.
Proof.
  unfold split_or_trim_condition. rewrite mem_char_In. cbn [SEPARATORS In].
  intros [<-|[<-|[<-|[<-|[<-|[<-|[<-|[]]]]]]]]; reflexivity.
Qed.

Lemma split_seps_ne t : split_seps t <> [].
Proof. destruct t as [|c t]; cbn [split_seps]; [discriminate|]. destruct (split_or_trim_condition c); [discriminate|]. destruct (split_seps t); discriminate. Qed.

Lemma split_chunks_spec t : forall base p cur,
  split_chunks t (base + p + blen (rev cur)) cur (base + p) =
  match split_seps t with
  | [] => []
  | x :: l => map (fun oc => mkstr (base + fst oc) (snd oc)) (chunks_off ((rev cur ++ x) :: l) p)
  end.
Proof.
  induction t as [|c t IH]; intros base p cur; cbn [split_chunks split_seps].
  - cbn [chunks_off map fst snd]. rewrite app_nil_r. reflexivity.
  - destruct (split_or_trim_condition c) eqn:Ec.
    + cbn [chunks_off map fst snd]. rewrite app_nil_r. f_equal.
      rewrite (sep_clen c Ec).
      specialize (IH base (p + blen (rev cur) + 1) []). cbn [rev blen app] in IH.
      rewrite N.add_0_r in IH.
      replace (base + p + blen (rev cur) + 1) with (base + (p + blen (rev cur) + 1)) by lia.
      rewrite IH. destruct (split_seps t) as [|x l] eqn:E; [destruct (split_seps_ne t E)|reflexivity].
    + specialize (IH base p (c :: cur)). cbn [rev] in IH. rewrite blen_app in IH. cbn [blen] in IH.
      replace (base + p + blen (rev cur) + clen c) with (base + p + (blen (rev cur) + (clen c + 0))) by lia.
      rewrite IH. destruct (split_seps t) as [|x l] eqn:E; [destruct (split_seps_ne t E)|].
      rewrite <- app_assoc. reflexivity.
Qed.

Definition at_base (base : N) (oc : N * list char) : str := mkstr (base + fst oc) (snd oc).

Lemma split_chunks_all t base :
  split_chunks t base [] base = map (at_base base) (chunks_of t).
Proof.
  pose proof (split_chunks_spec t base 0 []) as H. cbn [rev blen app] in H.
  rewrite !N.add_0_r in H. rewrite H. unfold chunks_of.
  destruct (split_seps t) as [|x l] eqn:E; [destruct (split_seps_ne t E)|reflexivity].
Qed.

(** every piece is separator-free; the text is the pieces joined by single separators *)
Fixpoint join_with (seps : list char) (cs : list (list char)) : list char :=
  match cs with
  | [] => []
  | [c] => c
  | c :: l => match seps with
              | [] => c ++ join_with [] l
              | s :: seps' => c ++ s :: join_with seps' l
              end
  end.

Lemma split_seps_nosep t : Forall (Forall (fun c => split_or_trim_condition c = false)) (split_seps t).
Proof.
  induction t as [|c t IH]; cbn [split_seps]; [repeat constructor|].
  destruct (split_or_trim_condition c) eqn:E; [constructor; [constructor|exact IH]|].
  destruct (split_seps t) as [|x l]; [repeat constructor; exact E|].
  inversion IH; subst. constructor; [constructor; assumption|assumption].
Qed.

Lemma split_seps_app a s b : split_or_trim_condition s = true ->
  split_seps (a ++ s :: b) = split_seps a ++ split_seps b.
Proof.
  intros Hs. induction a as [|c a IH]; cbn [app split_seps].
  - rewrite Hs. reflexivity.
  - rewrite IH. destruct (split_or_trim_condition c); [reflexivity|].
    destruct (split_seps a) as [|x l] eqn:E; [destruct (split_seps_ne a E)|reflexivity].
Qed.

Lemma split_seps_one t : Forall (fun c => split_or_trim_condition c = false) t -> split_seps t = [t].
Proof.
  induction 1 as [|c t Hc _ IH]; [reflexivity|]. cbn [split_seps]. rewrite Hc, IH. reflexivity.
Qed.

(** position information: [chunks_off] of the pieces of a text *)
Lemma chunks_off_app a b o :
  chunks_off (a ++ b) o = chunks_off a o ++ chunks_off b (o + fold_right (fun c n => blen c + 1 + n) 0 a).
Proof.
  revert o; induction a as [|c a IH]; intros o; cbn [chunks_off app fold_right].
  - rewrite N.add_0_r. reflexivity.
  - rewrite IH. do 3 f_equal. lia.
Qed.

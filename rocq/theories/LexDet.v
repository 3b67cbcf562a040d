(** LexDet.v -- the specification SpecLex.v is functional, and depends on the
    offset only by moving the spans. *)
From Verif Require Import Base Peg Rules RulesApi PegMeta RulesTotal PegChars Span Utf8 Selmaho ClassifyTable Classify
  Decompose Lex DecomposeSpec DecomposeFacts History DecomposeMachine SpecText DecomposeThms DecomposeSuffix
  PegSim ClassifyFacts SpecLex SpanThms LexThms LexFacts.
From Coq Require Import Lia Arith.

Definition stops (z : list char) : Prop := z = [] \/ exists s z', z = s :: z' /\ is_sep s.

Lemma nosep_split : forall a a' b b', a ++ b = a' ++ b' -> no_sep a -> no_sep a' -> stops b -> stops b' -> a = a' /\ b = b'.
Proof.
  induction a as [|c a IH]; intros [|c' a'] b b' E Ha Ha' Hb Hb'; cbn [app] in E.
  - auto.
  - exfalso. subst b. inversion Ha'; subst. destruct Hb as [?|(s & z' & E & Hs)]; [discriminate|]. injection E as -> _. contradiction.
  - exfalso. subst b'. inversion Ha; subst. destruct Hb' as [?|(s & z' & E & Hs)]; [discriminate|]. injection E as -> _. contradiction.
  - injection E as -> E. inversion Ha; inversion Ha'; subst. destruct (IH a' b b' E) as [-> ->]; auto.
Qed.

Lemma comma_not_sep : ~ is_sep 44.
Proof. unfold is_sep. cbn. intros H. repeat (destruct H as [H|H]; [discriminate|]). exact H. Qed.

Lemma commas_nosep t : all_commas t -> no_sep t.
Proof. apply Forall_impl. intros c ->. apply comma_not_sep. Qed.

Lemma read_chunk_det r k c z k' c' z' : read_chunk r k c z -> read_chunk r k' c' z' -> k = k' /\ c = c' /\ z = z'.
Proof.
  intros (E & Hc & Hz & Hk) (E' & Hc' & Hz' & Hk').
  assert (S : forall s u, is_sep s -> stops (s :: u)) by (intros s u Hs; right; eauto).
  destruct Hk as [[-> Hn]|(cs & s & -> & Hcs & Hs)], Hk' as [[-> Hn']|(cs' & s' & -> & Hcs' & Hs')].
  - cbn [app] in *. rewrite E in E'. destruct (nosep_split _ _ _ _ E' Hc Hc' Hz Hz') as [-> ->]. auto.
  - exfalso. cbn [app] in E. rewrite E, <- app_assoc in E'. cbn [app] in E'.
    apply nosep_split in E' as [-> _]; auto. apply commas_nosep; exact Hcs'.
  - exfalso. cbn [app] in E'. rewrite E', <- app_assoc in E. cbn [app] in E.
    apply nosep_split in E as [-> _]; auto. apply commas_nosep; exact Hcs.
  - rewrite E, <- !app_assoc in E'. cbn [app] in E'.
    apply nosep_split in E' as [-> E']; auto using commas_nosep. injection E' as -> E'.
    destruct (nosep_split _ _ _ _ E' Hc Hc' Hz Hz') as [-> ->]. auto.
Qed.

Lemma read_chunk_more r k c z : read_chunk r k c z -> ~ all_commas r.
Proof.
  intros (-> & _ & _ & [[-> Hn]|(cs & s & -> & Hcs & Hs)]) H.
  - apply Forall_app in H as [_ H]. apply Forall_app in H as [H _]. contradiction.
  - apply Forall_app in H as [H _]. apply Forall_app in H as [_ H]. inversion H; subst. apply comma_not_sep; assumption.
Qed.

Lemma quote_det D o r qs e z : quote D o r qs e z -> forall qs' e' z', quote D o r qs' e' z' -> qs = qs' /\ e = e' /\ z = z'.
Proof.
  induction 1 as [o r k c z Hr Hl|o r k c z qs e z2 Hr Hl Hq IH]; intros qs' e' z' H';
    inversion H' as [? ? k1 c1 z1 Hr' Hl'|? ? k1 c1 z1 qs1 e1 z3 Hr' Hl' Hq']; subst;
    destruct (read_chunk_det _ _ _ _ _ _ _ Hr Hr') as (<- & <- & <-).
  - auto.
  - contradiction.
  - contradiction.
  - destruct (IH _ _ _ Hq') as (-> & -> & ->). auto.
Qed.

Lemma unclosed_quote D o r qs e z : quote D o r qs e z -> ~ unclosed D r.
Proof.
  induction 1 as [o r k c z Hr Hl|o r k c z qs e z2 Hr Hl Hq IH]; intros H';
    inversion H' as [? Hc|? k1 c1 z1 Hr' Hl' Hu]; subst; try (eapply read_chunk_more; eassumption);
    destruct (read_chunk_det _ _ _ _ _ _ _ Hr Hr') as (<- & <- & <-); [contradiction|auto].
Qed.

Lemma parts_det isp D n dsp o r items k : parts isp D n dsp o r items k ->
  forall items' k', parts isp D n dsp o r items' k' -> items = items' /\ k = k'.
Proof.
  induction 1 as [dsp o r|n dsp o r qs e z items k Hq Hp IH|n dsp o r Hu]; intros items' k' H'; inversion H'; subst.
  - auto.
  - match goal with Hq' : quote D o r _ _ _ |- _ => destruct (quote_det _ _ _ _ _ _ Hq _ _ _ Hq') as (<- & <- & <-) end.
    match goal with Hp' : parts isp D n e _ z _ _ |- _ => destruct (IH _ _ Hp') as (<- & <-) end. auto.
  - exfalso. eapply unclosed_quote; eassumption.
  - exfalso. eapply unclosed_quote; eassumption.
  - auto.
Qed.

Lemma first_word_det bm t g w r g' w' r' : first_word bm t g w r -> first_word bm t g' w' r' -> g = g' /\ w = w' /\ r = r'.
Proof.
  intros (-> & m & H) (E & m' & H'). rewrite H in H'. injection H' as E1 E2 _.
  destruct (same_prefix _ _ _ _ E E1) as [<- E']. destruct (same_prefix _ _ _ _ E' ltac:(lia)) as [<- <-]. auto.
Qed.

Lemma first_word_some bm t g w r : first_word bm t g w r -> ~ no_word bm t.
Proof. intros (_ & m & H) H'. unfold no_word in H'. congruence. Qed.

Lemma word_token_det bm o t o' r tok o2 r2 tok2 : word_token bm o t o' r tok -> word_token bm o t o2 r2 tok2 ->
  o' = o2 /\ r = r2 /\ tok = tok2.
Proof.
  intros (g & w & sel & ex & Hf & Hc & -> & ->) (g' & w' & sel' & ex' & Hf' & Hc' & -> & ->).
  destruct (first_word_det _ _ _ _ _ _ _ _ Hf Hf') as (<- & <- & <-). rewrite Hc in Hc'. injection Hc' as <- <-. auto.
Qed.

Lemma word_token_some bm o t o' r tok : word_token bm o t o' r tok -> ~ no_word bm t.
Proof. intros (g & w & sel & ex & Hf & _). eapply first_word_some; exact Hf. Qed.

Lemma pause_not_quote s n : pause_quoting s -> quoted_texts s = Some n -> False.
Proof. intros [<-|[<-|[<-|[]]]]; discriminate. Qed.
Lemma ends_not_quote s n : ends_text s -> quoted_texts s = Some n -> False.
Proof. intros [<-|[<-|[]]]; discriminate. Qed.
Lemma ends_not_pause s : ends_text s -> pause_quoting s -> False.
Proof. intros [<-|[<-|[]]] [?|[?|[?|[]]]]; discriminate. Qed.

Theorem lexes_det bm o t i1 : lexes bm o t i1 -> forall i2, lexes bm o t i2 -> i1 = i2.
Proof.
  induction 1 as [o t Hn|o t o' r tok0 items Hw H1 H2 H3 Hl IH|o t o' r tok0 Hw H1|o t o' r tok0 k c z items Hw H1 Hrc Hl IH
    |o t o' r tok0 Hw H1 H2|o t o' r tok0 n Hw H1 H2|o t o' r tok0 n g D r' dsp Hw H1 Hf Hd H2
    |o t o' r tok0 n g D r' dsp qs e z part o2 r2 items Hw H1 Hf Hd Hq Hp Hl IH
    |o t o' r tok0 n g D r' dsp qs e z part Hw H1 Hf Hd Hq Hp]; intros i2 L;
  inversion L; subst;
  try match goal with Hw : word_token bm _ ?t _ _ _, Hn : no_word bm ?t |- _ => destruct (word_token_some _ _ _ _ _ _ Hw Hn) end;
  try match goal with Hw : word_token bm ?o ?t _ _ ?tok, Hw' : word_token bm ?o ?t _ _ ?tok' |- _ =>
        lazymatch tok with tok' => fail | _ => destruct (word_token_det _ _ _ _ _ _ _ _ _ Hw Hw') as (? & ? & ?); subst end end;
  try contradiction; try congruence;
  try match goal with H : pause_quoting ?s, H' : quoted_texts ?s = Some _ |- _ => destruct (pause_not_quote _ _ H H') end;
  try match goal with H : ends_text ?s, H' : quoted_texts ?s = Some _ |- _ => destruct (ends_not_quote _ _ H H') end;
  try match goal with H : ends_text ?s, H' : pause_quoting ?s |- _ => destruct (ends_not_pause _ H H') end;
  try match goal with H : read_chunk ?r _ _ _, H' : all_commas ?r |- _ => destruct (read_chunk_more _ _ _ _ H H') end;
  try match goal with Hw : first_word bm ?t _ _ _, Hn : no_word bm ?t |- _ => destruct (first_word_some _ _ _ _ _ Hw Hn) end;
  try match goal with Hf : first_word bm ?t _ ?w _, Hf' : first_word bm ?t _ ?w' _ |- _ =>
        lazymatch w with w' => fail | _ => destruct (first_word_det _ _ _ _ _ _ _ _ Hf Hf') as (? & ? & ?); subst end end;
  try match goal with H : quote ?D ?o ?r _ _ _, H' : unclosed ?D ?r |- _ => destruct (unclosed_quote _ _ _ _ _ _ H H') end;
  try match goal with H : quote ?D ?o ?r _ ?e _, H' : quote ?D ?o ?r _ ?e' _ |- _ =>
        lazymatch e with e' => fail | _ => destruct (quote_det _ _ _ _ _ _ H _ _ _ H') as (? & ? & ?); subst end end;
  try match goal with H : quoted_texts _ = Some (S ?n), H' : quoted_texts _ = Some (S ?m) |- _ =>
        lazymatch n with m => fail | _ => rewrite H in H'; injection H' as H'; subst end end;
  try match goal with H : parts ?i ?D ?n ?d ?o ?r ?x _, H' : parts ?i ?D ?n ?d ?o ?r ?y _ |- _ =>
        lazymatch x with y => fail | _ => destruct (parts_det _ _ _ _ _ _ _ _ H _ _ H') as (? & ?); try congruence end end.
  - f_equal. apply IH. assumption.
  - match goal with H : read_chunk ?r ?k _ _, H' : read_chunk ?r ?k' _ _ |- _ =>
        lazymatch k with k' => fail | _ => destruct (read_chunk_det _ _ _ _ _ _ _ H H') as (? & ? & ?); subst end end.
    do 2 f_equal. apply IH. assumption.
  - reflexivity.
  - match goal with H : Some _ = Some _ |- _ => injection H as ? ? end. subst. do 5 f_equal. apply IH. assumption.
Qed.

(** ** Moving a text *)

Lemma shift_mk n a b : shift_span n (mkspan a b) = mkspan (n + a) (n + b).
Proof. reflexivity. Qed.

Lemma quote_shift n D o r qs e z : quote D o r qs e z -> quote D (n + o) r (map (shift_span n) qs) (shift_span n e) z.
Proof.
  induction 1 as [o r k c z Hr Hl|o r k c z qs e z2 Hr Hl Hq IH]; cbn [map]; rewrite shift_mk, !N.add_assoc in *.
  - apply quote_end; assumption.
  - eapply quote_more; eassumption.
Qed.

Lemma quoted_text_shift n qs : quoted_text (map (shift_span n) qs) = map (shift_item n) (quoted_text qs).
Proof.
  destruct qs as [|q qs]; [reflexivity|]. cbn [quoted_text map]. cbn [shift_item]. unfold shift_token. cbn [experimental selmaho tspan].
  rewrite !last_cons, shift_mk. do 3 f_equal. f_equal. revert q. induction qs as [|p qs IH]; intros q; [reflexivity|].
  cbn [map]. rewrite !last_cons. apply IH.
Qed.

Lemma parts_shift m isp D n dsp o r items k : parts isp D n dsp o r items k ->
  parts (shift_span m isp) D n (shift_span m dsp) (m + o) r (map (shift_item m) items)
    (match k with Some (o2, r2) => Some (m + o2, r2) | None => None end).
Proof.
  induction 1 as [dsp o r|n dsp o r qs e z items k Hq Hp IH|n dsp o r Hu].
  - constructor.
  - rewrite map_app, <- quoted_text_shift. cbn [map]. change (shift_item m (delimiter e)) with (delimiter (shift_span m e)).
    eapply parts_more; [apply quote_shift; exact Hq|]. exact IH.
  - apply parts_unclosed. exact Hu.
Qed.

Lemma word_token_shift n bm o t o' r tok : word_token bm o t o' r tok -> word_token bm (n + o) t (n + o') r (shift_token n tok).
Proof.
  intros (g & w & sel & ex & Hf & Hc & -> & ->). exists g, w, sel, ex. split; [exact Hf|]. split; [exact Hc|].
  unfold shift_token. cbn [experimental selmaho tspan]. rewrite shift_mk. split; [repeat (f_equal; try lia)|lia].
Qed.

Theorem lexes_shift n bm o t items : lexes bm o t items -> lexes bm (n + o) t (map (shift_item n) items).
Proof.
  induction 1 as [o t Hn|o t o' r tok0 items Hw H1 H2 H3 Hl IH|o t o' r tok0 Hw H1|o t o' r tok0 k c z items Hw H1 Hrc Hl IH
    |o t o' r tok0 Hw H1 H2|o t o' r tok0 m Hw H1 H2|o t o' r tok0 m g D r' dsp Hw H1 Hf Hd H2
    |o t o' r tok0 m g D r' dsp qs e z part o2 r2 items Hw H1 Hf Hd Hq Hp Hl IH
    |o t o' r tok0 m g D r' dsp qs e z part Hw H1 Hf Hd Hq Hp]; cbn [map];
  try apply (word_token_shift n) in Hw.
  - apply lx_end; exact Hn.
  - eapply lx_plain; [exact Hw|exact H1|exact H2|exact H3|exact IH].
  - eapply lx_faho; [exact Hw|exact H1].
  - assert (E := lx_pause bm (n + o) t (n + o') r (shift_token n tok0) k c z (map (shift_item n) items) Hw H1 Hrc).
    replace (n + o' + blen k + blen c) with (n + (o' + blen k + blen c)) in E by lia.
    replace (n + o' + blen k) with (n + (o' + blen k)) in E by lia. apply E. exact IH.
  - eapply (lx_pause_eof _ _ _ _ _ (shift_token n tok0)); [exact Hw|exact H1|exact H2].
  - eapply (lx_missing _ _ _ _ _ (shift_token n tok0)); [exact Hw|exact H1|exact H2].
  - eapply (lx_unclosed _ _ _ _ _ (shift_token n tok0)); [exact Hw|exact H1|exact Hf| |exact H2].
    rewrite Hd, shift_mk, !N.add_assoc. reflexivity.
  - rewrite map_app, <- quoted_text_shift. cbn [map]. rewrite map_app.
    replace (shift_item n (delimiter dsp)) with (delimiter (mkspan (n + o' + blen g) (n + o' + blen g + blen D)))
      by (rewrite Hd; unfold delimiter, shift_item, shift_token; cbn [experimental selmaho tspan]; rewrite shift_mk, !N.add_assoc; reflexivity).
    eapply (lx_quote _ _ _ _ _ (shift_token n tok0)); [exact Hw|exact H1|exact Hf| | | |exact IH].
    + reflexivity.
    + apply (quote_shift n) in Hq. rewrite Hd in Hq. cbn [sp_end] in *. rewrite !N.add_assoc in Hq. exact Hq.
    + apply (parts_shift n) in Hp. exact Hp.
  - rewrite map_app, <- quoted_text_shift. cbn [map].
    replace (shift_item n (delimiter dsp)) with (delimiter (mkspan (n + o' + blen g) (n + o' + blen g + blen D)))
      by (rewrite Hd; unfold delimiter, shift_item, shift_token; cbn [experimental selmaho tspan]; rewrite shift_mk, !N.add_assoc; reflexivity).
    eapply (lx_quote_broken _ _ _ _ _ (shift_token n tok0)); [exact Hw|exact H1|exact Hf| | |].
    + reflexivity.
    + apply (quote_shift n) in Hq. rewrite Hd in Hq. cbn [sp_end] in *. rewrite !N.add_assoc in Hq. exact Hq.
    + apply (parts_shift n) in Hp. exact Hp.
Qed.

(** lexing the rest of a text is lexing that rest *)
Lemma lexes_is_lex bm o t items q : blen t < 4294967296 -> scalars t -> lexes bm o t items ->
  exists items', lex_all bm (mkstr q t) = Ret items' /\ items = map (shift_item o) items'.
Proof.
  intros Hb Hs H. destruct (lex_refines bm (mkstr q t) Hb Hs) as (items' & Hl & Ha & _). exists items'. split; [exact Ha|].
  apply (lexes_shift o) in Hl. cbn [txt] in Hl. rewrite N.add_0_r in Hl. eapply lexes_det; eassumption.
Qed.

(** LexQuote.v -- what follows a given token. *)
From Verif Require Import Base Peg Rules RulesApi PegMeta RulesTotal PegChars Utf8 Span Selmaho Classify Decompose Lex History SpecText SpanThms DecomposeSpec DecomposeThms
  DecomposeFacts DecomposeMachine PegSim ClassifyFacts ClassifyThms SpecLex LexThms LexFacts LexDet.
From Coq Require Import Lia.

Section Text.
Variable bm : build.
Variable s : str.
Hypothesis Hlen : s_len s < 4294967296.
Hypothesis Hsc : scalars (txt s).
Variable items : list item.
Hypothesis Hlex : lex_all bm s = Ret items.

Lemma lex_lexes : lexes bm 0 (txt s) items.
Proof. destruct (lex_refines bm s Hlen Hsc) as (items' & Hl & Ha & Hr). congruence. Qed.

Lemma part_ok a b : txt s = a ++ b -> blen b < 4294967296 /\ scalars b.
Proof.
  intros E. unfold s_len, scalars in *. rewrite E in *. rewrite blen_app in Hlen. apply Forall_app in Hsc as [_ H]. split; [lia|exact H].
Qed.

Lemma later_lex a o z its : txt s = a ++ z -> lexes bm o z its ->
  exists later, lex_all bm (mkstr 0 z) = Ret later /\ its = map (shift_item o) later.
Proof. intros E H. destruct (part_ok a z E). apply lexes_is_lex; assumption. Qed.

Variables (pre : list item) (tok : token) (rest : list item).
Hypothesis Hitems : items = pre ++ IOk tok :: rest.

(** the next word, and the first quoted text or its error *)
Definition quote_start (x g D r : list char) (dsp : span) : Prop :=
  txt s = x ++ g ++ D ++ r /\ sp_end (tspan tok) = blen x /\ first_word bm (g ++ D ++ r) g D r /\
  dsp = mkspan (blen x + blen g) (blen x + blen g + blen D).

Lemma quote_at n : quoted_texts (selmaho tok) = Some (S n) ->
  exists x g D r dsp, quote_start x g D r dsp /\
    ((unclosed D r /\ rest = [IErr (DelimitedQuoteUnclosed (tspan tok) dsp)]) \/
     exists qs e z, quote D (sp_end dsp) r qs e z /\
       ((exists part, parts (tspan tok) D n e (sp_end e) z part None /\ rest = delimiter dsp :: quoted_text qs ++ delimiter e :: part) \/
        (exists part o2 r2 later, parts (tspan tok) D n e (sp_end e) z part (Some (o2, r2)) /\ lex_all bm (mkstr 0 r2) = Ret later /\
           rest = delimiter dsp :: quoted_text qs ++ delimiter e :: part ++ map (shift_item o2) later))).
Proof.
  intros Hn.
  destruct (lexes_at (txt s) bm 0 (txt s) items lex_lexes [] pre tok rest eq_refl eq_refl Hitems) as (o1 & t1 & x1 & ET & Ex & Hl).
  { intros [E|[E|[]]]; rewrite <- E in Hn; discriminate. }
  assert (HP : ~ pause_quoting (selmaho tok)) by (intros [E|[E|[E|[]]]]; rewrite <- E in Hn; discriminate).
  assert (HF : ~ ends_text (selmaho tok)) by (intros [E|[E|[]]]; rewrite <- E in Hn; discriminate).
  inversion Hl; subst; try congruence; try contradiction.
  all: match goal with Hw : word_token bm _ ?t0 ?o' ?r0 tok |- _ => destruct (word_token_pos (txt s) bm _ t0 o' r0 tok x1 Hw ET eq_refl) as (P1 & P2 & P3 & x' & P4 & P5) end.
  all: match goal with H : first_word _ _ _ _ _ |- _ => pose proof H as Hf; destruct H as [-> Hm] end.
  all: exists x', g, D, r'; eexists; (split; [split; [exact P4|split; [congruence|split; [exact Hf|reflexivity]]]|]); rewrite P5.
  - left. split; [assumption|reflexivity].
  - right. exists qs, e, z. match goal with H : quoted_texts _ = Some (S ?m) |- _ => rewrite Hn in H; injection H as H; subst m end.
    split; [assumption|]. right.
    match goal with Hq : quote _ _ _ _ _ _ |- _ => destruct (quote_pos (txt s) _ _ _ _ _ _ Hq (x' ++ g ++ D)) as (y & Ey & Eb & Hse & _);
      [rewrite P4, <- !app_assoc; reflexivity|cbn [sp_end]; rewrite !blen_app; lia|] end.
    match goal with Hp : parts _ _ _ _ _ _ _ _ |- _ => pose proof (parts_pos (txt s) _ _ _ _ _ _ _ _ Hp ((x' ++ g ++ D) ++ y)) as Pp; pose proof Hp as Hp' end.
    destruct Pp as (mid & _ & _ & _ & x2 & E2 & _).
    { rewrite P4, Ey, <- !app_assoc. reflexivity. }
    { exact Eb. }
    { exact P1. }
    { exact Hse. }
    match goal with Hl2 : lexes bm o2 r2 _ |- _ => destruct (later_lex x2 o2 r2 _ E2 Hl2) as (later & L1 & L2) end.
    exists part, o2, r2, later. split; [exact Hp'|]. split; [exact L1|]. rewrite L2. reflexivity.
  - right. exists qs, e, z. match goal with H : quoted_texts _ = Some (S ?m) |- _ => rewrite Hn in H; injection H as H; subst m end.
    split; [assumption|]. left. exists part. split; [assumption|reflexivity].
Qed.

Lemma pause_at : pause_quoting (selmaho tok) ->
  exists x r, txt s = x ++ r /\ sp_end (tspan tok) = blen x /\
    ((all_commas r /\ rest = [IErr (PauseDelimitedQuoteEof (tspan tok))]) \/
     exists k c z later, read_chunk r k c z /\ lex_all bm (mkstr 0 z) = Ret later /\
       rest = IOk (mktok false S_AnyText (mkspan (blen x + blen k) (blen x + blen k + blen c)))
              :: map (shift_item (blen x + blen k + blen c)) later).
Proof.
  intros HP.
  destruct (lexes_at (txt s) bm 0 (txt s) items lex_lexes [] pre tok rest eq_refl eq_refl Hitems) as (o1 & t1 & x1 & ET & Ex & Hl).
  { intros [E|[E|[]]]; rewrite <- E in HP; cbn in HP; intuition discriminate. }
  assert (HN : quoted_texts (selmaho tok) = None) by (destruct HP as [<-|[<-|[<-|[]]]]; reflexivity).
  assert (HF : ~ ends_text (selmaho tok)) by (intros [E|[E|[]]]; rewrite <- E in HP; cbn in HP; intuition discriminate).
  inversion Hl; subst; try congruence; try contradiction.
  all: match goal with Hw : word_token bm _ ?t0 ?o' ?r0 tok |- _ => destruct (word_token_pos (txt s) bm _ t0 o' r0 tok x1 Hw ET eq_refl) as (P1 & P2 & P3 & x' & P4 & P5) end.
  all: exists x', r; (split; [exact P4|split; [congruence|]]); rewrite P5.
  - right. match goal with Hr : read_chunk _ _ _ _ |- _ => destruct (chunk_pos (txt s) x' r k c z P4 Hr) as (_ & _ & C3) end.
    match goal with Hl2 : lexes bm _ z _ |- _ => destruct (later_lex _ _ z _ C3 Hl2) as (later & L1 & L2) end.
    exists k, c, z, later. split; [assumption|]. split; [exact L1|]. rewrite L2. reflexivity.
  - left. split; [assumption|reflexivity].
Qed.

Lemma faho_at : ends_text (selmaho tok) -> rest = [].
Proof.
  intros HF.
  destruct (lexes_at (txt s) bm 0 (txt s) items lex_lexes [] pre tok rest eq_refl eq_refl Hitems) as (o1 & t1 & x1 & ET & Ex & Hl).
  { intros [E|[E|[]]]; rewrite <- E in HF; cbn in HF; intuition discriminate. }
  assert (HN : quoted_texts (selmaho tok) = None) by (destruct HF as [<-|[<-|[]]]; reflexivity).
  assert (HP : ~ pause_quoting (selmaho tok)) by (intros [E|[E|[E|[]]]]; rewrite <- E in HF; cbn in HF; intuition discriminate).
  inversion Hl; subst; try congruence; try contradiction.
Qed.

(** after any other word, the rest of the text is lexed *)
Lemma plain_at : is_plain (selmaho tok) -> ~ In (selmaho tok) [S_AnyText; S_ZoiDelimiter] ->
  exists x r later, txt s = x ++ r /\ sp_end (tspan tok) = blen x /\ lex_all bm (mkstr 0 r) = Ret later /\
    rest = map (shift_item (blen x)) later.
Proof.
  intros (H1 & H2 & H3) Ht.
  destruct (lexes_at (txt s) bm 0 (txt s) items lex_lexes [] pre tok rest eq_refl eq_refl Hitems Ht) as (o1 & t1 & x1 & ET & Ex & Hl).
  inversion Hl; subst; try congruence; try contradiction.
  match goal with Hw : word_token bm _ ?t0 ?o' ?r0 tok |- _ => destruct (word_token_pos (txt s) bm _ t0 o' r0 tok x1 Hw ET eq_refl) as (P1 & P2 & P3 & x' & P4 & P5) end.
  match goal with Hl2 : lexes bm _ r _ |- _ => destruct (later_lex _ _ r _ P4 Hl2) as (later & L1 & L2) end.
  exists x', r, later. split; [exact P4|]. split; [congruence|]. split; [exact L1|]. rewrite P5. exact L2.
Qed.
End Text.

(** ** Decomposition restarted at a word boundary *)
Lemma restart bm : forall n l1 p q t x r l2 a b, List.length l1 = n -> blen t < 4294967296 ->
  decompose_all bm (mkstr p t) = Ret (l1 ++ mkspan a b :: l2) -> t = x ++ r -> blen x = b ->
  text_words t = l1 ++ mkspan a b :: l2 /\ decompose_all bm (mkstr q r) = Ret (text_words r) /\ l2 = map (shift_span b) (text_words r).
Proof.
  assert (Small : forall u, blen u < 4294967296 -> blen u <= U32MAX) by (unfold U32MAX; intros; lia).
  induction n as [|n IH]; intros [|sp l1] p q t x r l2 a b Hn Hb Hd Et Ex; try discriminate Hn;
    pose proof (decompose_tiled bm (mkstr p t) _ Hd Hb) as HT; cbn [txt app] in HT;
    pose proof Hd as Hd2; rewrite decompose_all_spec in Hd2 by (cbn [txt]; auto); cbn [txt] in Hd2; injection Hd2 as Hd2;
    (split; [exact Hd2|]); (split; [rewrite decompose_all_spec; [reflexivity|cbn [txt]; apply Small; rewrite Et, blen_app in Hb; lia]|]);
    inversion HT as [|? ? g w rest sps _ _ Htl]; subst.
  - rewrite N.add_0_l in *.
    match goal with H : blen g + blen w = blen x |- _ => destruct (same_prefix (g ++ w) x rest r) as [<- <-];
      [rewrite <- app_assoc; congruence|rewrite blen_app; lia|] end.
    eapply text_words_suffix; [reflexivity|exact Hd2].
  - rewrite N.add_0_l in *. match goal with H : ?e = x ++ r |- _ => rename H into E end.
    pose proof (text_words_suffix (g ++ w ++ rest) g w rest _ eq_refl Hd2) as S2.
    symmetry in S2. apply map_eq_app in S2 as (k1 & k2 & Ew & Ek1 & Ek2). destruct k2 as [|[a' b'] k2]; [discriminate|].
    cbn [map] in Ek2. injection Ek2 as _ Ea Ek2. cbn [sp_end] in Ea.
    assert (Hx : exists x', x = (g ++ w) ++ x' /\ rest = x' ++ r /\ blen x' = b').
    { rewrite app_assoc in E. apply app_eq_app in E as (m & [[E1 E2]|[E1 E2]]).
      - assert (Em : blen m = 0) by (pose proof (f_equal blen E1) as L; rewrite !blen_app in L; lia).
        destruct m as [|c m]; [|exfalso; cbn in Em; destruct (clen c) eqn:Ec; [|lia]; unfold clen in Ec; repeat (destruct (_ <? _); try discriminate)].
        rewrite app_nil_r in E1. exists []. rewrite app_nil_r. cbn [app] in *. split; [congruence|]. split; [congruence|].
        apply f_equal with (f := blen) in E1. rewrite blen_app in E1. cbn. lia.
      - exists m. split; [exact E1|]. split; [exact E2|]. apply f_equal with (f := blen) in E1. rewrite !blen_app in E1. lia. }
    destruct Hx as (x' & Ex' & Er & Eb').
    assert (Hbr : blen rest < 4294967296) by (rewrite <- E, !blen_app in Hb; lia).
    destruct (IH k1 0 0 rest x' r k2 a' b' ltac:(rewrite <- Ek1 in Hn; cbn [List.length] in Hn; rewrite map_length in Hn; lia) Hbr) as (_ & _ & I3).
    + rewrite decompose_all_spec by (cbn [txt]; auto). cbn [txt]. rewrite Ew. reflexivity.
    + exact Er.
    + exact Eb'.
    + rewrite <- Ek2, I3. rewrite map_map. apply map_ext. intros [u v]. unfold shift_span. cbn [sp_start sp_end].
      apply f_equal2; lia.
Qed.

Theorem decompose_restart bm p q t x r l1 l2 a b : blen t < 4294967296 ->
  decompose_all bm (mkstr p t) = Ret (l1 ++ mkspan a b :: l2) -> t = x ++ r -> blen x = b ->
  exists l, decompose_all bm (mkstr q r) = Ret l /\ l2 = map (shift_span b) l.
Proof. intros H1 H2 H3 H4. destruct (restart bm _ l1 p q t x r l2 a b eq_refl H1 H2 H3 H4) as (_ & Ha & Hb). eauto. Qed.

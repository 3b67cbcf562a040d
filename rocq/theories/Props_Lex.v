(** Props_Lex.v -- properties C21-C29, C47, C48 of the lexer.
    Only statements, each closed by a few lines from lemmas proved elsewhere,
    and examples showing that the hypotheses are met.  [scalars (txt s)] says
    that the chars are Unicode scalar values, as in every Rust [&str]. *)
From Verif Require Import Base Span Selmaho Classify Decompose Lex History SpecText SpanThms DecomposeThms
  DecomposeFacts DecomposeMachine DecomposeSpec DecomposeSuffix PegSim ClassifyFacts ClassifyThms SpecLex LexThms LexFacts LexDet LexQuote.
From Coq Require Import Lia Sorting.Sorted.

Definition ex_quotes : str := mkstr 500 (lit "mi cusku zoi gy. I am,, here .g,y .i me'oi broda da fa'o ma").

Local Ltac ok_text := split; [vm_compute; reflexivity|unfold scalars; repeat constructor].

(** C21 Lexing is total: every history of calls of [next] is panic-free, yields
    finitely many items and then [None] forever; [lex_all] collects the items. *)
Theorem C21_lex_total bm s : s_len s < 4294967296 -> scalars (txt s) ->
  exists items, lex_all bm s = Ret items /\
    forall k, exists l, lrun bm (List.length items + k) (lex s) = Ret (map Some items ++ repeat None k, l).
Proof. intros H1 H2. destruct (lex_refines bm s H1 H2) as (items & _ & Ha & Hr). exists items. split; [exact Ha|exact Hr]. Qed.
Print Assumptions C21_lex_total.

Example C21_example : (s_len ex_quotes < 4294967296 /\ scalars (txt ex_quotes)) /\
  lex_all Debug ex_quotes = Ret [
    IOk (mktok false S_Koha (mkspan 0 2)); IOk (mktok false S_Gismu (mkspan 3 8));
    IOk (mktok false S_Zoi (mkspan 9 12)); IOk (mktok false S_ZoiDelimiter (mkspan 13 15));
    IOk (mktok false S_AnyText (mkspan 16 29)); IOk (mktok false S_ZoiDelimiter (mkspan 30 33));
    IOk (mktok false S_I (mkspan 35 36)); IOk (mktok true S_Mehoi (mkspan 37 42));
    IOk (mktok false S_AnyText (mkspan 43 48)); IOk (mktok false S_Koha (mkspan 49 51));
    IOk (mktok false S_Faho (mkspan 52 56))].
Proof. split; [ok_text|vm_compute; reflexivity]. Qed.

(** C22 All spans slice the input; token spans are ordered and disjoint. *)
Theorem C22_spans bm s items : s_len s < 4294967296 -> scalars (txt s) -> lex_all bm s = Ret items ->
  (forall i sp, In i items -> In sp (item_spans i) -> exists w, span_slice sp s = Some w) /\
  StronglySorted (fun v w => sp_end v <= sp_start w) (map tspan (tokens items)).
Proof.
  intros H1 H2 H. apply (lex_lexes bm s H1 H2) in H.
  destruct (lexes_pos (txt s) bm 0 (txt s) items H [] eq_refl eq_refl) as ((hi & Ho) & Hs). split.
  - intros i sp Hi Hsp. apply slices_slice. rewrite Forall_forall in Hs. apply Hs. apply in_flat_map. eauto.
  - eapply ordered_sorted. exact Ho.
Qed.
Print Assumptions C22_spans.

Example C22_example : lex_all Release (mkstr 7 (lit "mi me'oi,,")) =
    Ret [IOk (mktok false S_Koha (mkspan 0 2)); IOk (mktok true S_Mehoi (mkspan 3 8));
         IErr (PauseDelimitedQuoteEof (mkspan 3 8))].
Proof. vm_compute. reflexivity. Qed.

(** C23 As long as no word is a quote initiator or fa'o, the items are the words
    of [decompose], each with the class and flag given by [classify]. *)
Theorem C23_plain bm s items ws1 ws2 : s_len s < 4294967296 -> scalars (txt s) ->
  lex_all bm s = Ret items -> decompose_all bm s = Ret (ws1 ++ ws2) ->
  (forall sp w sel ex, In sp ws1 -> span_slice sp (mkstr 0 (txt s)) = Some w -> classify w = Ret (sel, ex) -> is_plain sel) ->
  exists i1 i2, items = i1 ++ i2 /\ Forall2 (token_of (txt s)) ws1 i1 /\ (ws2 = [] -> i2 = []).
Proof.
  intros H1 H2 H Hd Hp. apply (lex_lexes bm s H1 H2) in H.
  assert (Hb : blen (txt s) <= U32MAX) by (unfold s_len, U32MAX in *; lia).
  refine (lexes_plain (txt s) bm 0 (txt s) items H Hb [] ws1 ws2 eq_refl eq_refl _ Hp).
  rewrite decompose_all_spec in Hd by exact Hb. injection Hd as <-. unfold words_at.
  rewrite <- (map_id (text_words (txt s))) at 2. apply map_ext. intros [x y]. reflexivity.
Qed.
Print Assumptions C23_plain.

(** in particular, a text without any of them *)
Theorem C23_no_quotes bm s ws : s_len s < 4294967296 -> scalars (txt s) -> decompose_all bm s = Ret ws ->
  (forall sp w sel ex, In sp ws -> span_slice sp (mkstr 0 (txt s)) = Some w -> classify w = Ret (sel, ex) -> is_plain sel) ->
  exists items, lex_all bm s = Ret items /\ Forall2 (token_of (txt s)) ws items.
Proof.
  intros H1 H2 Hd Hp. destruct (lex_refines bm s H1 H2) as (items & _ & Ha & _). exists items. split; [exact Ha|].
  rewrite <- (app_nil_r ws) in Hd. destruct (C23_plain bm s items ws [] H1 H2 Ha Hd Hp) as (i1 & i2 & -> & F & Hn).
  rewrite Hn, app_nil_r by reflexivity. exact F.
Qed.
Print Assumptions C23_no_quotes.

Example C23_example : decompose_all Debug (mkstr 0 (lit "mi'o.klama zoi")) = Ret ([mkspan 0 4; mkspan 5 10] ++ [mkspan 11 14]) /\
  classify (mkstr 0 (lit "mi'o")) = Ret (S_Koha, false) /\ is_plain S_Koha /\
  classify (mkstr 5 (lit "klama")) = Ret (S_Gismu, false) /\ is_plain S_Gismu.
Proof.
  repeat (split; [vm_compute; reflexivity|]). split; [split; [reflexivity|split; intros [H|H]; cbn in H; intuition discriminate]|].
  split; [vm_compute; reflexivity|]. split; [reflexivity|split; intros [H|H]; cbn in H; intuition discriminate].
Qed.

(** C24 Delimited quotes.  The items of a text are exactly those described by
    the relation [lexes] of SpecLex.v, which determines them ... *)
Theorem C24_lex_spec bm s items : s_len s < 4294967296 -> scalars (txt s) ->
  (lex_all bm s = Ret items <-> lexes bm 0 (txt s) items).
Proof.
  intros H1 H2. split; [exact (lex_lexes bm s H1 H2 items)|]. intros H.
  destruct (lex_refines bm s H1 H2) as (items' & Hl & Ha & _). rewrite Ha. f_equal. eapply lexes_det; eassumption.
Qed.
Print Assumptions C24_lex_spec.

(** ... in particular, after a ZOI or MUhOI word: [D] is the next word, [e] the
    first later chunk with the letters of [D], [qs] the chunks between; the
    text [z] after [e] is lexed as a text of its own. *)
Theorem C24_quote bm s items pre tok rest : s_len s < 4294967296 -> scalars (txt s) ->
  lex_all bm s = Ret items -> items = pre ++ IOk tok :: rest -> In (selmaho tok) [S_Zoi; S_Muhoi] ->
  exists x g D r dsp, txt s = x ++ g ++ D ++ r /\ sp_end (tspan tok) = blen x /\ first_word bm (g ++ D ++ r) g D r /\
    dsp = mkspan (blen x + blen g) (blen x + blen g + blen D) /\
    ((unclosed D r /\ rest = [IErr (DelimitedQuoteUnclosed (tspan tok) dsp)]) \/
     exists qs e z later, quote D (sp_end dsp) r qs e z /\ lex_all bm (mkstr 0 z) = Ret later /\
       rest = delimiter dsp :: quoted_text qs ++ delimiter e :: map (shift_item (sp_end e)) later).
Proof.
  intros H1 H2 H E Ht. assert (Hn : quoted_texts (selmaho tok) = Some 1%nat) by (destruct Ht as [<-|[<-|[]]]; reflexivity).
  destruct (quote_at bm s H1 H2 items H pre tok rest E 0 Hn) as (x & g & D & r & dsp & (Q1 & Q2 & Q3 & Q4) & Hc).
  exists x, g, D, r, dsp. repeat (split; [assumption|]).
  destruct Hc as [Hc|(qs & e & z & Hq & [(part & Hp & Hr)|(part & o2 & r2 & later & Hp & Hl & Hr)])]; [left; exact Hc| |].
  - inversion Hp.
  - inversion Hp; subst. right. exists qs, e, r2, later. split; [assumption|]. split; [assumption|reflexivity].
Qed.
Print Assumptions C24_quote.

(** after a SOhEhAI word: two texts, three delimiters. *)
Theorem C24_double_quote bm s items pre tok rest : s_len s < 4294967296 -> scalars (txt s) ->
  lex_all bm s = Ret items -> items = pre ++ IOk tok :: rest -> selmaho tok = S_Sohehai ->
  exists x g D r dsp, txt s = x ++ g ++ D ++ r /\ sp_end (tspan tok) = blen x /\ first_word bm (g ++ D ++ r) g D r /\
    dsp = mkspan (blen x + blen g) (blen x + blen g + blen D) /\
    ((unclosed D r /\ rest = [IErr (DelimitedQuoteUnclosed (tspan tok) dsp)]) \/
     exists qs e z, quote D (sp_end dsp) r qs e z /\
      ((unclosed D z /\ rest = delimiter dsp :: quoted_text qs ++ [delimiter e; IErr (DelimitedQuoteUnclosed (tspan tok) e)]) \/
       exists qs2 e2 z2 later, quote D (sp_end e) z qs2 e2 z2 /\ lex_all bm (mkstr 0 z2) = Ret later /\
         rest = delimiter dsp :: quoted_text qs ++ delimiter e :: quoted_text qs2 ++ delimiter e2
                :: map (shift_item (sp_end e2)) later)).
Proof.
  intros H1 H2 H E Ht. assert (Hn : quoted_texts (selmaho tok) = Some 2%nat) by (rewrite Ht; reflexivity).
  destruct (quote_at bm s H1 H2 items H pre tok rest E 1 Hn) as (x & g & D & r & dsp & (Q1 & Q2 & Q3 & Q4) & Hc).
  exists x, g, D, r, dsp. repeat (split; [assumption|]).
  destruct Hc as [Hc|(qs & e & z & Hq & [(part & Hp & Hr)|(part & o2 & r2 & later & Hp & Hl & Hr)])]; [left; exact Hc| |];
    right; exists qs, e, z; (split; [exact Hq|]).
  - left. inversion Hp; subst.
    + match goal with H : parts _ _ 0 _ _ _ _ _ |- _ => inversion H end.
    + split; [assumption|reflexivity].
  - right. inversion Hp; subst. match goal with H : parts _ _ 0 _ _ _ _ _ |- _ => inversion H; subst end.
    do 4 eexists. split; [eassumption|]. split; [exact Hl|]. rewrite <- app_assoc. reflexivity.
Qed.
Print Assumptions C24_double_quote.

Example C24_example : lex_all Debug (mkstr 0 (lit "so'e'ai g,y a gy ,b c .gy mi")) = Ret [
    IOk (mktok true S_Sohehai (mkspan 0 7)); IOk (mktok false S_ZoiDelimiter (mkspan 8 11));
    IOk (mktok false S_AnyText (mkspan 12 13)); IOk (mktok false S_ZoiDelimiter (mkspan 14 16));
    IOk (mktok false S_AnyText (mkspan 17 22)); IOk (mktok false S_ZoiDelimiter (mkspan 23 25));
    IOk (mktok false S_Koha (mkspan 26 28))] /\
  lex_all Debug (mkstr 0 (lit "so'e'ai gy a gy ,b c")) = Ret [
    IOk (mktok true S_Sohehai (mkspan 0 7)); IOk (mktok false S_ZoiDelimiter (mkspan 8 10));
    IOk (mktok false S_AnyText (mkspan 11 12)); IOk (mktok false S_ZoiDelimiter (mkspan 13 15));
    IErr (DelimitedQuoteUnclosed (mkspan 0 7) (mkspan 13 15))].
Proof. split; vm_compute; reflexivity. Qed.

(** C25 The documented token sequence [ZoiDelimiter, AnyText, ZoiDelimiter] is
    not always what follows: an empty quote has no text token. *)
Theorem C25_refuted : exists s items pre tok rest d1 d2, s_len s < 4294967296 /\ scalars (txt s) /\
  lex_all Debug s = Ret items /\ items = pre ++ IOk tok :: rest /\ selmaho tok = S_Zoi /\
  rest = [delimiter d1; delimiter d2].
Proof.
  exists (mkstr 0 (lit "zoi gy gy")), [IOk (mktok false S_Zoi (mkspan 0 3)); delimiter (mkspan 4 6); delimiter (mkspan 7 9)], [].
  eexists. eexists. exists (mkspan 4 6), (mkspan 7 9). split; [vm_compute; reflexivity|]. split; [unfold scalars; repeat constructor|].
  split; [vm_compute; reflexivity|]. split; [reflexivity|]. split; reflexivity.
Qed.
Print Assumptions C25_refuted.

(** What does hold: the text token is there exactly when the chunk after the
    starting delimiter is not yet the ending one. *)
Theorem C25_text_partial bm s items pre tok rest : s_len s < 4294967296 -> scalars (txt s) ->
  lex_all bm s = Ret items -> items = pre ++ IOk tok :: rest -> In (selmaho tok) [S_Zoi; S_Muhoi] ->
  exists x g D r dsp, txt s = x ++ g ++ D ++ r /\ sp_end (tspan tok) = blen x /\ first_word bm (g ++ D ++ r) g D r /\
    forall k c z, read_chunk r k c z ->
      (letters c = letters D -> exists later, rest = delimiter dsp :: delimiter (mkspan (sp_end dsp + blen k) (sp_end dsp + blen k + blen c)) :: later) /\
      (letters c <> letters D ->
         rest = [IErr (DelimitedQuoteUnclosed (tspan tok) dsp)] \/
         exists text e later, rest = delimiter dsp :: IOk (mktok false S_AnyText text) :: delimiter e :: later /\
           sp_start text = sp_end dsp + blen k).
Proof.
  intros H1 H2 H E Ht. destruct (C24_quote bm s items pre tok rest H1 H2 H E Ht) as (x & g & D & r & dsp & Q1 & Q2 & Q3 & Q4 & Hc).
  exists x, g, D, r, dsp. repeat (split; [assumption|]). intros k c z Hr. split; intros Hl.
  - destruct Hc as [[Hu _]|(qs & e & z' & later & Hq & _ & ->)].
    + exfalso. eapply unclosed_quote; [|exact Hu]. eapply (quote_end D 0); eassumption.
    + exists (map (shift_item (sp_end e)) later).
      destruct (quote_det _ _ _ _ _ _ Hq _ _ _ (quote_end D (sp_end dsp) r k c z Hr Hl)) as (-> & -> & _). reflexivity.
  - destruct Hc as [[_ Hu]|(qs & e & z' & later & Hq & _ & ->)]; [left; exact Hu|right].
    inversion Hq; subst; match goal with H' : read_chunk r ?k0 ?c0 ?z0 |- _ => lazymatch k0 with k => fail | _ =>
      destruct (read_chunk_det _ _ _ _ _ _ _ Hr H') as (? & ? & ?); subst end end; [contradiction|].
    do 3 eexists. split; [reflexivity|reflexivity].
Qed.
Print Assumptions C25_text_partial.

(** C26 Pause-delimited quotes: exactly one text token, the rest of the chunk or
    the next chunk ([read_chunk]), or the error when only commas are left. *)
Theorem C26_pause_quote bm s items pre tok rest : s_len s < 4294967296 -> scalars (txt s) ->
  lex_all bm s = Ret items -> items = pre ++ IOk tok :: rest -> In (selmaho tok) [S_Mehoi; S_Zohoi; S_Dohoi] ->
  exists x r, txt s = x ++ r /\ sp_end (tspan tok) = blen x /\
    ((all_commas r /\ rest = [IErr (PauseDelimitedQuoteEof (tspan tok))]) \/
     exists k c z later, read_chunk r k c z /\ lex_all bm (mkstr 0 z) = Ret later /\
       rest = IOk (mktok false S_AnyText (mkspan (blen x + blen k) (blen x + blen k + blen c)))
              :: map (shift_item (blen x + blen k + blen c)) later).
Proof. intros H1 H2 H E Ht. exact (pause_at bm s H1 H2 items H pre tok rest E Ht). Qed.
Print Assumptions C26_pause_quote.

Example C26_example : lex_all Debug (mkstr 0 (lit "me'oi.a,b do zo'oi xamgu")) = Ret [
    IOk (mktok true S_Mehoi (mkspan 0 5)); IOk (mktok false S_AnyText (mkspan 6 9)); IOk (mktok false S_Koha (mkspan 10 12));
    IOk (mktok true S_Zohoi (mkspan 13 18)); IOk (mktok false S_AnyText (mkspan 19 24))].
Proof. vm_compute. reflexivity. Qed.

(** C27 An error is the last item, there is at most one, and it says the truth;
    afterwards [next] gives [None] forever (C21). *)
Theorem C27_error bm s items pre e rest : s_len s < 4294967296 -> scalars (txt s) ->
  lex_all bm s = Ret items -> items = pre ++ IErr e :: rest ->
  rest = [] /\ (forall e', ~ In (IErr e') pre) /\ error_ok (txt s) bm pre e.
Proof.
  intros H1 H2 H E. apply (lex_lexes bm s H1 H2) in H. pose proof (lexes_err _ _ _ _ H) as HL.
  split; [eapply HL; exact E|]. split.
  - intros e' Hi. apply in_split in Hi as (p1 & p2 & ->). rewrite <- app_assoc in E. cbn [app] in E. apply HL in E.
    destruct p2; discriminate.
  - eapply (lexes_error (txt s) bm 0 (txt s) items H []); [reflexivity|reflexivity|exact E].
Qed.
Print Assumptions C27_error.

Example C27_example : lex_all Debug (mkstr 0 (lit "mi zoi gy do")) = Ret [
    IOk (mktok false S_Koha (mkspan 0 2)); IOk (mktok false S_Zoi (mkspan 3 6));
    IErr (DelimitedQuoteUnclosed (mkspan 3 6) (mkspan 7 9))] /\
  lex_all Debug (mkstr 0 (lit "mi zoi ,")) = Ret [
    IOk (mktok false S_Koha (mkspan 0 2)); IErr (DelimitedQuoteMissingSeparator (mkspan 3 6))].
Proof. split; vm_compute; reflexivity. Qed.

(** C28 fa'o ends lexing. *)
Theorem C28_faho bm s items pre tok rest : s_len s < 4294967296 -> scalars (txt s) ->
  lex_all bm s = Ret items -> items = pre ++ IOk tok :: rest -> In (selmaho tok) [S_Faho; S_Fahoho] -> rest = [].
Proof. intros H1 H2 H E Ht. exact (faho_at bm s H1 H2 items H pre tok rest E Ht). Qed.
Print Assumptions C28_faho.

(** ... and nothing but fa'o, a quote or an error cuts the text short: after any
    other word token the rest of the text is lexed as a text of its own. *)
Theorem C28_continues bm s items pre tok rest : s_len s < 4294967296 -> scalars (txt s) ->
  lex_all bm s = Ret items -> items = pre ++ IOk tok :: rest ->
  ~ In (selmaho tok) [S_Zoi; S_Muhoi; S_Sohehai; S_Mehoi; S_Zohoi; S_Dohoi; S_Faho; S_Fahoho; S_AnyText; S_ZoiDelimiter] ->
  exists x r later, txt s = x ++ r /\ sp_end (tspan tok) = blen x /\ lex_all bm (mkstr 0 r) = Ret later /\
    rest = map (shift_item (blen x)) later.
Proof.
  intros H1 H2 H E Ht. apply (plain_at bm s H1 H2 items H pre tok rest E).
  - split; [|split]; [|intros Hi; apply Ht; cbn in *; tauto..].
    destruct (selmaho tok); try reflexivity; exfalso; apply Ht; cbn; tauto.
  - intros Hi. apply Ht. cbn in *. tauto.
Qed.
Print Assumptions C28_continues.

Example C28_example : lex_all Debug (mkstr 0 (lit "mi fa'o zoi mi")) =
  Ret [IOk (mktok false S_Koha (mkspan 0 2)); IOk (mktok false S_Faho (mkspan 3 7))] /\
  lex_all Debug (mkstr 0 (lit "mi do")) = Ret ([] ++ IOk (mktok false S_Koha (mkspan 0 2)) :: map (shift_item 2) [IOk (mktok false S_Koha (mkspan 1 3))]) /\
  lex_all Debug (mkstr 0 (lit " do")) = Ret [IOk (mktok false S_Koha (mkspan 1 3))].
Proof. split; [|split]; vm_compute; reflexivity. Qed.

(** C29 The experimental flag of a token. *)
Theorem C29_flags bm s items tok : s_len s < 4294967296 -> scalars (txt s) ->
  lex_all bm s = Ret items -> In (IOk tok) items ->
  (In (selmaho tok) [S_AnyText; S_ZoiDelimiter] /\ experimental tok = false) \/
  (~ In (selmaho tok) [S_AnyText; S_ZoiDelimiter] /\
   exists w, span_slice (tspan tok) (mkstr 0 (txt s)) = Some w /\ classify w = Ret (selmaho tok, experimental tok)).
Proof.
  intros H1 H2 H Hi. apply (lex_lexes bm s H1 H2) in H.
  destruct (lexes_tokens (txt s) bm 0 (txt s) items H [] eq_refl eq_refl (IOk tok) Hi) as [Ht|(tok' & w & [= <-] & _ & Hs & Hc)].
  - left. exact Ht.
  - assert (D : {In (selmaho tok) [S_AnyText; S_ZoiDelimiter]} + {~ In (selmaho tok) [S_AnyText; S_ZoiDelimiter]}).
    { apply in_dec. decide equality. }
    destruct D as [D|D]; [left|right; eauto]. split; [exact D|].
    destruct D as [D|[D|[]]].
    + eapply classify_flag_words; [exact Hc|]. rewrite <- D. cbn. tauto.
    + exfalso. rewrite <- D in Hc. exact (classify_no_delim _ _ _ Hc eq_refl).
Qed.
Print Assumptions C29_flags.

(** C47 A pause-delimited quote can be empty: two separators in a row. *)
Theorem C47_refuted : exists s, s_len s < 4294967296 /\ scalars (txt s) /\
  lex_all Debug s = Ret [IOk (mktok true S_Mehoi (mkspan 0 5)); IOk (mktok false S_AnyText (mkspan 6 6));
                         IOk (mktok false S_Gismu (mkspan 7 12))].
Proof. exists (mkstr 0 (lit "me'oi  broda")). split; [vm_compute; reflexivity|]. split; [unfold scalars; repeat constructor|]. vm_compute. reflexivity. Qed.
Print Assumptions C47_refuted.

(** C48 Decomposition can be restarted at any word boundary. *)
Theorem C48_restart bm p q t x r l1 l2 a b : blen t < 4294967296 ->
  decompose_all bm (mkstr p t) = Ret (l1 ++ mkspan a b :: l2) -> t = x ++ r -> blen x = b ->
  exists l, decompose_all bm (mkstr q r) = Ret l /\ l2 = map (shift_span b) l.
Proof. intros H. exact (decompose_restart bm p q t x r l1 l2 a b H). Qed.
Print Assumptions C48_restart.

Example C48_example : decompose_all Debug (mkstr 0 (lit "coiro,do mi")) = Ret ([mkspan 0 3] ++ mkspan 3 5 :: [mkspan 5 8; mkspan 9 11]) /\
  decompose_all Debug (mkstr 0 (lit ",do mi")) = Ret [mkspan 0 3; mkspan 4 6].
Proof. split; vm_compute; reflexivity. Qed.

(** LexThms.v -- the lexer state machine refines the specification SpecLex.v. *)
From Verif Require Import Base Peg Rules RulesApi PegMeta RulesTotal PegChars Span Utf8 Selmaho ClassifyTable Classify
  Decompose Lex DecomposeSpec DecomposeFacts History DecomposeMachine SpecText DecomposeThms DecomposeSuffix
  PegSim ClassifyFacts SpecLex SpanThms.
From Coq Require Import Lia Arith Sorting.Sorted.

Lemma all_commas_spec t : all_commas t <-> Forall (fun c => is_comma c = true) t.
Proof. unfold all_commas. split; apply Forall_impl; intros c; apply is_comma_spec. Qed.

Definition a_left (a : astate) : nat := (match fst a with [] => 0 | _ => 1 end + List.length (snd a))%nat.

(** [next_no_decomposition] in terms of the remaining text *)
Lemma nnd_rest o r a : rest_is o r a ->
  (all_commas r /\ a_nnd (o + blen r) a = (None, ([], []))) \/
  exists k c z a', read_chunk r k c z /\
    a_nnd (o + blen r) a = (Some (mkspan (o + blen k) (o + blen k + blen c)), a') /\
    rest_is (o + blen k + blen c) z a' /\ (S (a_left a') = a_left a)%nat.
Proof.
  assert (Rend : forall p, rest_is p [] ([], [])) by (intros p; apply (rest_last p []); constructor).
  intros [Hf|c s u -> Hf Hs].
  - destruct (chunk_words r) as [|m l] eqn:E.
    + left. split; [apply all_commas_spec, chunk_words_nil; exact E|reflexivity].
    + right. exists [], r, [], ([], []). cbn [spans_of a_nnd sp_start blen]. rewrite N.add_0_r.
      split; [|split; [reflexivity|split; [apply Rend|reflexivity]]].
      split; [cbn; rewrite app_nil_r; reflexivity|]. split; [apply no_sep_spec; exact Hf|]. split; [left; reflexivity|].
      left. split; [reflexivity|]. intros H. apply all_commas_spec, chunk_words_nil in H. congruence.
  - right. destruct (chunk_words c) as [|m l] eqn:E.
    + cbn [spans_of a_nnd].
      destruct (split_seps_cases u) as [[Eu Hu]|(c2 & s2 & u2 & -> & Hs2 & Eu & Hu)]; rewrite Eu; cbn [chunks_off].
      * exists (c ++ [s]), u, [], ([], []). rewrite blen_app, blen_cons, (sep_clen s Hs). cbn [blen].
        split; [|split; [apply f_equal2; [apply f_equal; apply f_equal2; lia|reflexivity]|split; [apply Rend|reflexivity]]].
        split; [rewrite <- app_assoc, app_nil_r; reflexivity|]. split; [apply no_sep_spec; exact Hu|]. split; [left; reflexivity|].
        right. exists c, s. split; [reflexivity|]. split; [apply all_commas_spec, chunk_words_nil; exact E|apply is_sep_spec; exact Hs].
      * exists (c ++ [s]), c2, (s2 :: u2). eexists. rewrite blen_app, blen_cons, (sep_clen s Hs). cbn [blen].
        split; [|split; [apply f_equal2; [apply f_equal; apply f_equal2; lia|reflexivity]|split; [|reflexivity]]].
        { split; [rewrite <- app_assoc; reflexivity|]. split; [apply no_sep_spec; exact Hu|].
          split; [right; exists s2, u2; split; [reflexivity|apply is_sep_spec; exact Hs2]|].
          right. exists c, s. split; [reflexivity|]. split; [apply all_commas_spec, chunk_words_nil; exact E|apply is_sep_spec; exact Hs]. }
        assert (R := rest_more (o + (blen c + (1 + 0)) + blen c2) (s2 :: u2) [] s2 u2 eq_refl (Forall_nil _) Hs2).
        replace (chunk_words []) with (@nil (list char)) in R by (symmetry; apply commas_no_words; constructor).
        cbn [spans_of blen] in R. replace (o + blen c + 1 + blen c2 + 1) with (o + (blen c + (1 + 0)) + blen c2 + 0 + 1) by lia.
        exact R.
    + exists [], c, (s :: u), ([], chunks_off (split_seps u) (o + blen c + 1)). cbn [spans_of a_nnd sp_start blen app].
      split; [|split; [|split]].
      * split; [reflexivity|]. split; [apply no_sep_spec; exact Hf|].
        split; [right; exists s, u; split; [reflexivity|apply is_sep_spec; exact Hs]|].
        left. split; [reflexivity|]. intros H. apply all_commas_spec, chunk_words_nil in H. congruence.
      * destruct (split_seps u) as [|x l'] eqn:Eu; [destruct (split_seps_ne u Eu)|]. cbn [chunks_off].
        apply f_equal2; [apply f_equal; apply f_equal2; lia|reflexivity].
      * assert (R := rest_more (o + 0 + blen c) (s :: u) [] s u eq_refl (Forall_nil _) Hs).
        replace (chunk_words []) with (@nil (list char)) in R by (symmetry; apply commas_no_words; constructor).
        cbn [spans_of blen] in R.
        replace (o + blen c + 1) with (o + 0 + blen c + 0 + 1) by lia. exact R.
      * reflexivity.
Qed.

(** * Runs of the lexer *)



Lemma runs_cons bm l i l1 items : lex_next bm l = Ret (Some i, l1) -> runs bm l1 items -> runs bm l (i :: items).
Proof.
  intros H R k. destruct (R k) as (l' & E). exists l'. cbn [List.length Nat.add lrun]. rewrite H. cbn [obind].
  rewrite E. reflexivity.
Qed.

Lemma runs_nil bm (I : lexer -> Prop) : (forall l, I l -> exists l', lex_next bm l = Ret (None, l') /\ I l') ->
  forall l, I l -> runs bm l [].
Proof.
  intros H l Hl k. revert l Hl. cbn [List.length Nat.add map app]. induction k as [|k IH]; intros l Hl.
  - exists l. reflexivity.
  - destruct (H l Hl) as (l1 & E & H1). destruct (IH l1 H1) as (l' & E'). exists l'. cbn [lrun repeat].
    rewrite E. cbn [obind]. rewrite E'. reflexivity.
Qed.

Lemma runs_done bm d inp : runs bm (mklex d inp Done) [].
Proof.
  apply (runs_nil bm (fun l => state l = Done)); [|reflexivity].
  intros l Hl. exists l. split; [|exact Hl]. unfold lex_next. rewrite Hl. reflexivity.
Qed.

Lemma runs_collect bm : forall items l fuel, runs bm l items -> (List.length items < fuel)%nat ->
  lex_collect bm fuel l = Ret items.
Proof.
  induction items as [|i items IH]; intros l fuel R Hf; (destruct fuel as [|fuel]; [cbn in Hf; lia|]); cbn [lex_collect].
  - destruct (R 1%nat) as (l' & E). cbn [List.length Nat.add lrun] in E.
    destruct (lex_next bm l) as [[x l1]| |]; cbn [obind] in E; try discriminate.
    cbn in E. injection E as -> _. cbn [obind]. reflexivity.
  - assert (Hl : exists l1, lex_next bm l = Ret (Some i, l1)).
    { destruct (R 0%nat) as (l' & E). cbn [List.length Nat.add lrun] in E.
      destruct (lex_next bm l) as [[x l1]| |]; cbn [obind] in E; try discriminate.
      destruct (lrun bm _ l1) as [[xs l2]| |]; cbn [obind] in E; try discriminate.
      cbn in E. injection E as -> _ _. eauto. }
    destruct Hl as (l1 & Hl). rewrite Hl. cbn [obind]. rewrite (IH l1 fuel).
    + reflexivity.
    + intros k. destruct (R k) as (l' & E). cbn [List.length Nat.add lrun] in E. rewrite Hl in E. cbn [obind] in E.
      destruct (lrun bm _ l1) as [[xs l2]| |]; cbn [obind] in E; try discriminate.
      cbn in E. injection E as -> ->. eauto.
    + cbn in Hf. lia.
Qed.

Section Lexer.
Context (bm : build) (s : str) (Hsize : s_len s < 4294967296) (Hsc : scalars (txt s)).
Let T := txt s.
Let Hs : blen (txt s) <= U32MAX.
Proof. unfold s_len, U32MAX in *. lia. Qed.

(** the decomposer [d] stands at offset [o], before the text [r], after a word *)
Definition standing (d : decomposer) (o : N) (r : list char) : Prop :=
  exists a, refines s d a /\ a_inv T a /\ rest_is o r a /\ exists x, T = x ++ r /\ blen x = o.

Definition starting (d : decomposer) (o : N) (r : list char) : Prop :=
  exists a, refines s d a /\ a_inv T a /\ (rest_is o r a \/ fresh o r a) /\ exists x, T = x ++ r /\ blen x = o.

Lemma standing_starting d o r : standing d o r -> starting d o r.
Proof. intros (a & H1 & H2 & H3 & H4). exists a. auto. Qed.

Lemma part_small x r : T = x ++ r -> blen r <= U32MAX.
Proof. intros E. pose proof Hs as H. fold T in H. rewrite E, blen_app in H. lia. Qed.

Lemma step_next d o r : starting d o r ->
  (no_word bm r /\ exists d', dec_next bm d = Ret (None, d') /\ refines s d' ([], []) /\ a_inv T ([], [])) \/
  exists g w r' d', first_word bm r g w r' /\ has_non_comma w /\
    dec_next bm d = Ret (Some (mkspan (o + blen g) (o + blen g + blen w)), d') /\
    standing d' (o + blen g + blen w) r' /\
    span_slice (mkspan (o + blen g) (o + blen g + blen w)) s = Some (mkstr (ptr s + (o + blen g)) w) /\
    scalars w.
Proof.
  intros (a & Hr & Hi & Hra & x & ET & Ex). pose proof (part_small x r ET) as Hsm.
  destruct (dec_next_refines bm s Hs d a Hr Hi) as (d' & Hd & Hr' & _).
  pose proof (a_step_inv T (blen T) ONext a Hi) as Hi'. cbn [a_step] in Hi'.
  pose proof (next_rest o r a Hra) as Hn. destruct (a_next a) as [[sp|] a'] eqn:En; cbn [fst snd] in *.
  - right. destruct Hn as (g & w & r' & l & -> & -> & Hl & Hw & Hg & Hrest).
    exists g, w, r', d'. split; [|split; [exact Hw|split; [exact Hd|split; [|split]]]].
    + split; [reflexivity|]. exists l. rewrite decompose_all_spec by exact Hsm. cbn [txt]. rewrite Hl. reflexivity.
    + exists a'. split; [exact Hr'|]. split; [exact Hi'|]. split; [exact Hrest|].
      exists (x ++ g ++ w). rewrite ET, !blen_app, <- !app_assoc. split; [reflexivity|lia].
    + apply slice_some. exists (x ++ g), r'. cbn [txt ptr sp_start sp_end].
      change (txt s) with T. rewrite ET, blen_app, <- !app_assoc. repeat split; lia.
    + clear -Hsc ET. unfold scalars in *. change (txt s) with T in Hsc. rewrite ET in Hsc.
      apply Forall_app in Hsc as [_ Hsc]. apply Forall_app in Hsc as [_ Hsc]. apply Forall_app in Hsc as [Hsc _]. exact Hsc.
  - left. destruct Hn as [-> Hn]. split.
    + unfold no_word. rewrite decompose_all_spec by exact Hsm. cbn [txt]. rewrite Hn. reflexivity.
    + exists d'. auto.
Qed.

Lemma step_nnd d o r : standing d o r ->
  (all_commas r /\ exists d', next_no_decomposition bm d = Ret (None, d')) \/
  exists k c z d', read_chunk r k c z /\
    next_no_decomposition bm d = Ret (Some (mkspan (o + blen k) (o + blen k + blen c)), d') /\
    standing d' (o + blen k + blen c) z /\
    span_slice (mkspan (o + blen k) (o + blen k + blen c)) s = Some (mkstr (ptr s + (o + blen k)) c) /\
    forall a a', refines s d a -> refines s d' a' -> a_left a = S (a_left a').
Proof.
  intros (a & Hr & Hi & Hra & x & ET & Ex).
  destruct (nnd_refines bm s Hs d a Hr Hi) as (d' & Hd & Hr').
  pose proof (a_step_inv T (blen T) ONoDec a Hi) as Hi'. cbn [a_step] in Hi'. fold T in Hd, Hr'.
  assert (EL : blen T = o + blen r) by (rewrite ET, blen_app, Ex; reflexivity).
  destruct (nnd_rest o r a Hra) as [[Hc Hn]|(k & c & z & a' & Hrc & Hn & Hz & Hleft)]; rewrite EL, Hn in *; cbn [fst snd] in *.
  - left. eauto.
  - right. exists k, c, z, d'. split; [exact Hrc|]. split; [exact Hd|]. destruct Hrc as (-> & _).
    split; [|split].
    + exists a'. split; [exact Hr'|]. split; [exact Hi'|]. split; [exact Hz|].
      exists (x ++ k ++ c). rewrite ET, !blen_app, <- !app_assoc. split; [reflexivity|lia].
    + apply slice_some. exists (x ++ k), z. cbn [txt ptr sp_start sp_end].
      change (txt s) with T. rewrite ET, blen_app, <- !app_assoc. repeat split; lia.
    + assert (U : forall d0 a1 a2, refines s d0 a1 -> refines s d0 a2 -> a_left a1 = a_left a2).
      { intros d0 a1 a2 (_ & Hc1 & Hm1 & _) (_ & Hc2 & Hm2 & _). unfold a_left. rewrite <- Hc1, <- Hc2.
        f_equal. rewrite Hm1 in Hm2. apply (f_equal (@List.length _)) in Hm2. rewrite !map_length in Hm2. exact Hm2. }
      intros a1 a2 H1 H2. rewrite (U d a1 a H1 Hr), (U d' a2 a' H2 Hr'). congruence.
Qed.

(** ** Delimited quotes *)

Definition upd_start (sq : option N) (qs : list span) : option N :=
  match sq, qs with
  | None, q :: _ => Some (sp_start q)
  | _, _ => sq
  end.
Definition upd_end (eq : option N) (qs : list span) : option N :=
  match qs with [] => eq | q :: _ => Some (sp_end (last qs q)) end.

Definition text_of (sq eq : option N) : option token :=
  match sq, eq with Some a, Some b => Some (mktok false S_AnyText (mkspan a b)) | _, _ => None end.

Definition loop_exit (q : quote_state) (d : decomposer) (e : span) (text : option token) : option item * lexer :=
  let end_token := mktok false S_ZoiDelimiter e in
  let nq := qs_next q e in
  if is_first q then
    (Some (IOk (mktok false S_ZoiDelimiter (starting_delimiter_span q))),
     mklex d s (match text with
                | None => OneMoreTokenThen end_token nq
                | Some xt => TwoMoreTokensThen xt end_token nq
                end))
  else match text with
       | Some xt => (Some (IOk xt), mklex d s (OneMoreTokenThen end_token nq))
       | None => (Some (IOk end_token), mklex d s (resume nq))
       end.

Lemma letters_drop t : drop_commas t = letters t.
Proof. reflexivity. Qed.

Lemma str_eqb_eq : forall a b, str_eqb a b = true <-> a = b.
Proof.
  induction a as [|x a IH]; intros [|y b]; cbn [str_eqb]; split; try congruence; try discriminate.
  - intros H. apply andb_true_iff in H as [H1 H2]. apply N.eqb_eq in H1. apply IH in H2. congruence.
  - intros [= -> ->]. rewrite N.eqb_refl. cbn. apply IH. reflexivity.
Qed.

Lemma same_delimiter_spec a b : same_delimiter a b = true <-> letters b = letters a.
Proof. unfold same_delimiter. rewrite str_eqb_eq. change drop_commas with letters. split; auto. Qed.

Lemma quote_loop_S n q d inp sq eq : quote_loop bm (S n) q d inp sq eq =
      let! (w, d') := next_no_decomposition bm d in
      match w with
      | None =>
          Ret (Some (IErr (DelimitedQuoteUnclosed (initiator_span q) (starting_delimiter_span q))),
               mklex d' inp Done)
      | Some wsp =>
          let! possible := unwrap (span_slice wsp inp) in
          let! starting := unwrap (span_slice (starting_delimiter_span q) inp) in
          if same_delimiter (txt starting) (txt possible) then
            let start_token := mktok false S_ZoiDelimiter (starting_delimiter_span q) in
            let! text_token :=
              match sq, eq with
              | Some a, Some b => let! sp := span_new a b in Ret (Some (mktok false S_AnyText sp))
              | _, _ => Ret None
              end in
            let end_token := mktok false S_ZoiDelimiter wsp in
            let nq := qs_next q wsp in
            if is_first q then
              Ret (Some (IOk start_token),
                   mklex d' inp (match text_token with
                                 | None => OneMoreTokenThen end_token nq
                                 | Some xt => TwoMoreTokensThen xt end_token nq
                                 end))
            else match text_token with
                 | Some xt => Ret (Some (IOk xt), mklex d' inp (OneMoreTokenThen end_token nq))
                 | None => Ret (Some (IOk end_token), mklex d' inp (resume nq))
                 end
          else
            quote_loop bm n q d' inp
              (match sq with None => Some (sp_start wsp) | Some a => Some a end)
              (Some (sp_end wsp))
      end.
Proof. reflexivity. Qed.

Lemma last_cons {A} (x : A) l d : last (x :: l) d = last l x.
Proof. revert x d; induction l as [|y l IH]; intros x d; [reflexivity|]. change (last (x :: y :: l) d) with (last (y :: l) d). rewrite !IH. reflexivity. Qed.

Lemma loop_spec q D D0 p0 : span_slice (starting_delimiter_span q) s = Some (mkstr p0 D0) -> letters D0 = letters D ->
  forall n d o r sq eq, standing d o r -> (forall a, refines s d a -> (a_left a < n)%nat) ->
  match sq, eq with Some a, Some b => a <= b /\ b <= o | None, None => True | _, _ => False end ->
  (unclosed D r /\ exists d',
     quote_loop bm n q d s sq eq =
     Ret (Some (IErr (DelimitedQuoteUnclosed (initiator_span q) (starting_delimiter_span q))), mklex d' s Done)) \/
  exists qs e z d' p E, quote D o r qs e z /\ standing d' (sp_end e) z /\
    span_slice e s = Some (mkstr p E) /\ letters E = letters D /\
    (List.length z <= List.length r)%nat /\ (has_non_comma D -> (List.length z < List.length r)%nat) /\
    quote_loop bm n q d s sq eq = Ret (loop_exit q d' e (text_of (upd_start sq qs) (upd_end eq qs))).
Proof.
  intros HD HDD. induction n as [|n IH]; intros d o r sq eq Hst Hn Hse.
  - destruct Hst as (a & Hr & _). specialize (Hn a Hr). lia.
  - rewrite quote_loop_S.
    destruct (step_nnd d o r Hst) as [(Hc & d' & ->)|(k & c & z & d' & Hrc & -> & Hst' & Hsl & Hleft)]; cbn [obind].
    + left. split; [apply unclosed_end; exact Hc|]. eauto.
    + rewrite Hsl, HD. cbn [unwrap obind txt].
      assert (El : (List.length z <= List.length r)%nat)
        by (destruct Hrc as (-> & _); rewrite !app_length; lia).
      destruct (same_delimiter D0 c) eqn:Ed.
      * apply same_delimiter_spec in Ed. rewrite HDD in Ed. right.
        exists [], (mkspan (o + blen k) (o + blen k + blen c)), z, d', (ptr s + (o + blen k)), c.
        split; [apply quote_end; assumption|]. split; [exact Hst'|]. split; [exact Hsl|]. split; [exact Ed|]. split; [exact El|]. split.
        { intros (x & Hx & Hxc). assert (Hxl : In x (letters c)).
          { rewrite Ed. unfold letters. apply filter_In. split; [exact Hx|]. unfold is_comma, COMMA in Hxc. rewrite Hxc. reflexivity. }
          unfold letters in Hxl. apply filter_In in Hxl as [Hxl _].
          destruct Hrc as (-> & _). rewrite !app_length. destruct c; [destruct Hxl|]. cbn. lia. }
        unfold loop_exit, text_of, upd_start, upd_end.
        destruct sq as [a|], eq as [b|]; try contradiction; cbn [obind].
        -- unfold span_new. rewrite (proj2 (N.leb_le a b)) by lia. cbn [obind]. destruct (is_first q); reflexivity.
        -- destruct (is_first q); reflexivity.
      * assert (Ed' : letters c <> letters D) by (rewrite <- HDD; intros H; apply same_delimiter_spec in H; congruence).
        cbn [sp_start sp_end].
        set (sp := mkspan (o + blen k) (o + blen k + blen c)).
        assert (Hn' : forall a', refines s d' a' -> (a_left a' < n)%nat).
        { intros a' Ha'. destruct Hst as (a & Ha & _). specialize (Hn a Ha). specialize (Hleft a a' Ha Ha'). lia. }
        assert (Hse' : match (match sq with None => Some (o + blen k) | Some a => Some a end) with
                       | Some a => a <= o + blen k + blen c /\ o + blen k + blen c <= o + blen k + blen c | None => False end)
          by (destruct sq as [a|], eq as [b|]; try contradiction; lia).
        specialize (IH d' _ z (match sq with None => Some (o + blen k) | Some a => Some a end) (Some (o + blen k + blen c)) Hst' Hn').
        destruct IH as [(Hu & d2 & E2)|(qs & e & z' & d2 & p & E & Hq & Hst2 & HE & HE' & Hl & Hl2 & E2)].
        { destruct (match sq with None => Some (o + blen k) | Some a => Some a end); [exact Hse'|contradiction]. }
        -- left. split; [eapply unclosed_more; eassumption|]. eauto.
        -- right. exists (sp :: qs), e, z', d2, p, E. split; [eapply quote_more; eassumption|].
           split; [exact Hst2|]. split; [exact HE|]. split; [exact HE'|]. split; [lia|]. split; [intros HD'; specialize (Hl2 HD'); lia|].
           rewrite E2. f_equal. f_equal. unfold text_of, upd_start, upd_end, sp. rewrite last_cons.
           destruct sq as [a|], eq as [b|]; try contradiction; destruct qs as [|q0 qs]; rewrite ?last_cons; reflexivity.
Qed.

Lemma left_fuel d a : refines s d a -> (a_left a < S (S (S (List.length (inner (chunks d))))))%nat.
Proof.
  intros (_ & _ & Hm & _). unfold a_left. apply (f_equal (@List.length _)) in Hm. rewrite map_length in Hm.
  rewrite <- Hm. unfold pk_rest. destruct (peeked (chunks d)) as [[c|]|]; destruct (fst a); cbn; lia.
Qed.

Lemma qs_next_spec n isp f dsp e :
  qs_next (mkqs (N.of_nat (S n)) isp f dsp) e = match n with O => None | S _ => Some (mkqs (N.of_nat n) isp false e) end.
Proof.
  unfold qs_next. cbn [how_many initiator_span]. replace (N.of_nat (S n) - 1) with (N.of_nat n) by lia.
  destruct n; [reflexivity|]. cbn [N.of_nat]. reflexivity.
Qed.

Definition parts_state (n : nat) (isp e : span) : lstate :=
  resume (match n with O => None | S _ => Some (mkqs (N.of_nat n) isp false e) end).

Definition good_from (d : decomposer) (o : N) (r : list char) : Prop :=
  exists items, lexes bm o r items /\ (List.length items <= 2 * List.length r + 1)%nat /\
    runs bm (mklex d s Normal) items.

Lemma quoted_text_of qs : map IOk (match text_of (upd_start None qs) (upd_end None qs) with Some t => [t] | None => [] end) = quoted_text qs.
Proof. unfold text_of, upd_start, upd_end, quoted_text. destruct qs as [|q qs]; [reflexivity|]. rewrite last_cons. reflexivity. Qed.

Lemma quoted_text_le qs : (List.length (quoted_text qs) <= 1)%nat.
Proof. destruct qs; cbn; lia. Qed.

Lemma parts_spec M D isp : has_non_comma D ->
  (forall d o r, (List.length r <= M)%nat -> standing d o r -> good_from d o r) ->
  forall n d o r e p E, standing d o r -> (List.length r <= M)%nat -> sp_end e = o ->
  span_slice e s = Some (mkstr p E) -> letters E = letters D ->
  exists part k items, parts isp D n e o r part k /\
    (match k with None => items = [] | Some (o2, r2) => lexes bm o2 r2 items end) /\
    (List.length (part ++ items) <= 2 * List.length r + 1)%nat /\
    runs bm (mklex d s (parts_state n isp e)) (part ++ items).
Proof.
  intros HD HM. induction n as [|n IH]; intros d o r e p E Hst Hr He Hsl HE.
  - destruct (HM d o r Hr Hst) as (items & Hl & Hlen & Hruns). exists [], (Some (o, r)), items.
    split; [constructor|]. split; [exact Hl|]. split; [exact Hlen|exact Hruns].
  - set (q := mkqs (N.of_nat (S n)) isp false e).
    destruct (loop_spec q D E p Hsl HE _ d o r None None Hst (left_fuel d) I)
      as [(Hu & d' & El)|(qs & e' & z & d' & p' & E' & Hq & Hst' & Hsl' & HE' & Hlz & Hlz' & El)].
    + exists [IErr (DelimitedQuoteUnclosed isp e)], None, []. split; [apply parts_unclosed; exact Hu|].
      split; [reflexivity|]. split; [cbn; lia|].
      eapply runs_cons; [|apply runs_done]. cbn [lex_next state parts_state resume].
      unfold next_delimited_quote. cbn [words l_input]. exact El.
    + specialize (Hlz' HD).
      destruct (IH d' (sp_end e') z e' p' E' Hst' ltac:(lia) eq_refl Hsl' HE') as (part & k & items & Hp & Hk & Hlen & Hruns).
      exists (quoted_text qs ++ delimiter e' :: part), k, items. split; [eapply parts_more; eassumption|]. split; [exact Hk|].
      pose proof (quoted_text_le qs) as Hqt. split.
      { rewrite <- app_assoc, app_length. cbn [app List.length]. lia. }
      rewrite <- app_assoc. cbn [app].
      assert (Hnext : lex_next bm (mklex d s (parts_state (S n) isp e)) = Ret (loop_exit q d' e' (text_of (upd_start None qs) (upd_end None qs)))).
      { cbn [lex_next state parts_state resume]. unfold next_delimited_quote. cbn [words l_input]. exact El. }
      rewrite <- quoted_text_of. unfold loop_exit in Hnext. cbn [is_first q] in Hnext.
      unfold q in Hnext. rewrite qs_next_spec in Hnext.
      destruct (text_of (upd_start None qs) (upd_end None qs)) as [xt|]; cbn [map app].
      * eapply runs_cons; [exact Hnext|]. eapply runs_cons; [|exact Hruns]. reflexivity.
      * eapply runs_cons; [exact Hnext|]. exact Hruns.
Qed.

Lemma word_tok r o g w r' sel ex : first_word bm r g w r' -> classify (mkstr (ptr s + (o + blen g)) w) = Ret (sel, ex) ->
  word_token bm o r (o + blen g + blen w) r' (mktok ex sel (mkspan (o + blen g) (o + blen g + blen w))).
Proof.
  intros Hf Hc. exists g, w, sel, ex. split; [exact Hf|]. split; [|split; reflexivity].
  rewrite <- Hc. apply classify_sim. split; reflexivity.
Qed.

Lemma lexer_good : forall M d o r, (List.length r <= M)%nat -> starting d o r -> good_from d o r.
Proof.
  induction M as [M IH] using (well_founded_induction lt_wf). intros d o r HM Hst.
  destruct (step_next d o r Hst) as [(Hno & d' & Hd & Href & Hinv)|(g & w & r' & d' & Hf & Hw & Hd & Hst' & Hsl & Hscw)].
  - exists []. split; [apply lx_end; exact Hno|]. split; [cbn; lia|].
    assert (R : runs bm (mklex d' s Normal) []).
    { apply (runs_nil bm (fun l => state l = Normal /\ l_input l = s /\ refines s (words l) ([], []))); [|repeat split; apply Href].
      intros [dd inp st] (E1 & E2 & E3). cbn [state l_input words] in *. subst st inp.
      destruct (dec_next_refines bm s Hs dd _ E3 Hinv) as (dd' & Edd & Rdd & _). cbn [a_next a_find fst snd] in Edd, Rdd.
      exists (mklex dd' s Normal). split; [|repeat split; apply Rdd].
      cbn [lex_next state]. unfold next_normal. cbn [words l_input state]. rewrite Edd. reflexivity. }
    intros k. destruct k as [|k]; [eexists; reflexivity|]. destruct (R k) as (l' & E).
    exists l'. cbn [List.length Nat.add lrun]. cbn [lex_next state]. unfold next_normal. cbn [words l_input state].
    rewrite Hd. cbn [obind]. cbn [List.length Nat.add map app] in E. rewrite E. reflexivity.
  - assert (Hlr : (List.length r' < List.length r)%nat).
    { destruct Hf as (-> & _). destruct Hw as (x & Hx & _). rewrite !app_length. destruct w; [destruct Hx|]. cbn. lia. }
    set (sp := mkspan (o + blen g) (o + blen g + blen w)) in *.
    destruct (class_of w) as [sel ex] eqn:Ecl.
    assert (Hcl : classify (mkstr (ptr s + (o + blen g)) w) = Ret (sel, ex))
      by (rewrite classify_spec by exact Hscw; cbn [txt]; rewrite Ecl; reflexivity).
    pose proof (word_tok r o g w r' sel ex Hf Hcl) as Hwt. fold sp in Hwt.
    assert (Hnn : forall k, k = (let tok := IOk (mktok ex sel sp) in
      match sel with
      | S_Zoi | S_Muhoi | S_Sohehai =>
          let n := match sel with S_Sohehai => 2 | _ => 1 end in
          let! (w2, d2) := dec_next bm d' in
          match w2 with
          | Some sp2 => Ret (Some tok, mklex d2 s (DelimitedQuote (mkqs n sp true sp2)))
          | None => Ret (Some (IErr (DelimitedQuoteMissingSeparator sp)), mklex d2 s Done)
          end
      | S_Mehoi | S_Zohoi | S_Dohoi => Ret (Some tok, mklex d' s (PauseDelimitedQuote sp))
      | S_Faho | S_Fahoho => Ret (Some tok, mklex d' s Done)
      | _ => Ret (Some tok, mklex d' s Normal)
      end) -> lex_next bm (mklex d s Normal) = k).
    { intros k ->. cbn [lex_next state]. unfold next_normal. cbn [words l_input state]. rewrite Hd. cbn [obind].
      rewrite Hsl. cbn [unwrap obind]. rewrite Hcl. cbn [obind]. reflexivity. }
    specialize (Hnn _ eq_refl). cbv zeta in Hnn.
    assert (Hquote : forall n, quoted_texts sel = Some (S n) ->
      (lex_next bm (mklex d s Normal) =
         let! (w2, d2) := dec_next bm d' in
         match w2 with
         | Some sp2 => Ret (Some (IOk (mktok ex sel sp)), mklex d2 s (DelimitedQuote (mkqs (N.of_nat (S n)) sp true sp2)))
         | None => Ret (Some (IErr (DelimitedQuoteMissingSeparator sp)), mklex d2 s Done)
         end) -> good_from d o r).
    { clear Hnn. intros n Hqt Hnn.
      destruct (step_next d' _ r' (standing_starting _ _ _ Hst')) as [(Hno & d2 & Hd2 & _)|(g2 & D & r2 & d2 & Hf2 & HD & Hd2 & Hst2 & Hsl2 & _)].
      - exists [IErr (DelimitedQuoteMissingSeparator sp)]. split; [eapply (lx_missing bm o r _ r' _ (S n) Hwt); eassumption|].
        split; [cbn; lia|]. eapply runs_cons; [rewrite Hnn, Hd2; reflexivity|apply runs_done].
      - set (dsp := mkspan (o + blen g + blen w + blen g2) (o + blen g + blen w + blen g2 + blen D)) in *.
        rewrite Hd2 in Hnn. cbn [obind] in Hnn.
        assert (Hlr2 : (List.length r2 < List.length r')%nat).
        { destruct Hf2 as (-> & _). destruct HD as (x & Hx & _). rewrite !app_length. destruct D; [destruct Hx|]. cbn. lia. }
        set (q := mkqs (N.of_nat (S n)) sp true dsp) in *.
        destruct (loop_spec q D D _ Hsl2 eq_refl _ d2 _ r2 None None Hst2 (left_fuel d2) I)
          as [(Hu & d3 & El)|(qs & e' & z & d3 & p' & E' & Hq & Hst3 & Hsl3 & HE' & Hlz & Hlz' & El)].
        + exists [IOk (mktok ex sel sp); IErr (DelimitedQuoteUnclosed sp dsp)].
          split; [eapply (lx_unclosed bm o r _ r' _ (S n) g2 D r2 dsp Hwt); [exact Hqt|exact Hf2|reflexivity|exact Hu]|].
          split; [cbn [List.length]; lia|].
          eapply runs_cons; [exact Hnn|]. eapply runs_cons; [|apply runs_done].
          cbn [lex_next state]. unfold next_delimited_quote. cbn [words l_input]. exact El.
        + specialize (Hlz' HD).
          destruct (parts_spec (List.length z) D sp HD) with (n := n) (d := d3) (o := sp_end e') (r := z) (e := e') (p := p') (E := E')
            as (part & k & items & Hp & Hk & Hlen & Hruns); [|exact Hst3|lia|reflexivity|exact Hsl3|exact HE'|].
          { intros dd oo rr Hrr Hss. apply (IH (List.length z)); [lia|exact Hrr|apply standing_starting; exact Hss]. }
          exists (IOk (mktok ex sel sp) :: delimiter dsp :: quoted_text qs ++ delimiter e' :: part ++ items).
          split; [|split].
          * destruct k as [[o2 rr2]|].
            -- eapply (lx_quote bm o r _ r' _ n g2 D r2 dsp); [exact Hwt|exact Hqt|exact Hf2|reflexivity|exact Hq|exact Hp|exact Hk].
            -- subst items. rewrite app_nil_r.
               eapply (lx_quote_broken bm o r _ r' _ n g2 D r2 dsp); [exact Hwt|exact Hqt|exact Hf2|reflexivity|exact Hq|exact Hp].
          * pose proof (quoted_text_le qs). cbn [List.length]. rewrite app_length. cbn [List.length]. lia.
          * eapply runs_cons; [exact Hnn|].
            assert (Hnext : lex_next bm (mklex d2 s (DelimitedQuote q)) = Ret (loop_exit q d3 e' (text_of (upd_start None qs) (upd_end None qs)))).
            { cbn [lex_next state]. unfold next_delimited_quote. cbn [words l_input]. exact El. }
            unfold loop_exit in Hnext. cbn [is_first q] in Hnext. unfold q in Hnext. rewrite qs_next_spec in Hnext.
            rewrite <- quoted_text_of.
            destruct (text_of (upd_start None qs) (upd_end None qs)) as [xt|]; cbn [map app];
              (eapply runs_cons; [exact Hnext|]); repeat (eapply runs_cons; [reflexivity|]); exact Hruns. }
    assert (Hplain : quoted_texts sel = None -> ~ pause_quoting sel -> ~ ends_text sel ->
      lex_next bm (mklex d s Normal) = Ret (Some (IOk (mktok ex sel sp)), mklex d' s Normal) -> good_from d o r).
    { clear Hnn Hquote. intros H1 H2 H3 Hnn.
      destruct (IH (List.length r') ltac:(lia) d' _ r' (Nat.le_refl _) (standing_starting _ _ _ Hst')) as (items & Hl & Hlen & Hruns).
      exists (IOk (mktok ex sel sp) :: items). split; [eapply (lx_plain bm o r _ r' _ items Hwt); assumption|].
      split; [cbn [List.length]; lia|]. eapply runs_cons; [exact Hnn|exact Hruns]. }
    assert (Hfaho : ends_text sel ->
      lex_next bm (mklex d s Normal) = Ret (Some (IOk (mktok ex sel sp)), mklex d' s Done) -> good_from d o r).
    { clear Hnn Hquote Hplain. intros H1 Hnn. exists [IOk (mktok ex sel sp)]. split; [eapply (lx_faho bm o r _ r' _ Hwt); assumption|].
      split; [cbn; lia|]. eapply runs_cons; [exact Hnn|apply runs_done]. }
    assert (Hpause : pause_quoting sel ->
      lex_next bm (mklex d s Normal) = Ret (Some (IOk (mktok ex sel sp)), mklex d' s (PauseDelimitedQuote sp)) -> good_from d o r).
    { clear Hnn Hquote Hplain Hfaho. intros H1 Hnn.
      destruct (step_nnd d' _ r' Hst') as [(Hc & d2 & Hd2)|(k & c & z & d2 & Hrc & Hd2 & Hst2 & Hsl2 & _)].
      - exists [IOk (mktok ex sel sp); IErr (PauseDelimitedQuoteEof sp)].
        split; [eapply (lx_pause_eof bm o r _ r' _ Hwt); assumption|]. split; [cbn [List.length]; lia|].
        eapply runs_cons; [exact Hnn|]. eapply runs_cons; [|apply runs_done].
        cbn [lex_next state]. unfold next_pause_delimited_quote. cbn [words l_input]. rewrite Hd2. reflexivity.
      - assert (Hlz : (List.length z <= List.length r')%nat) by (destruct Hrc as (-> & _); rewrite !app_length; lia).
        destruct (IH (List.length z) ltac:(lia) d2 _ z (Nat.le_refl _) (standing_starting _ _ _ Hst2)) as (items & Hl & Hlen & Hruns).
        eexists. split; [eapply (lx_pause bm o r _ r' _ k c z items Hwt); eassumption|].
        split; [cbn [List.length]; lia|].
        eapply runs_cons; [exact Hnn|]. eapply runs_cons; [|exact Hruns].
        cbn [lex_next state]. unfold next_pause_delimited_quote. cbn [words l_input]. rewrite Hd2. reflexivity. }
    clear IH. clearbody sp. clear Hd Hst' Hsl Hscw Ecl Hcl Hwt Hf Hw Hst.
    assert (Np : forall x, existsb (fun y => sel_eqb x y) [S_Mehoi; S_Zohoi; S_Dohoi] = false -> ~ pause_quoting x)
      by (intros x Hx [<-|[<-|[<-|[]]]]; discriminate).
    assert (Ne : forall x, existsb (fun y => sel_eqb x y) [S_Faho; S_Fahoho] = false -> ~ ends_text x)
      by (intros x Hx [<-|[<-|[]]]; discriminate).
    specialize (Np sel). specialize (Ne sel).
    destruct sel; cbv beta iota in Hnn;
      first [ exact (Hplain eq_refl (Np eq_refl) (Ne eq_refl) Hnn)
            | apply Hfaho; [cbn; tauto|exact Hnn]
            | apply Hpause; [cbn; tauto|exact Hnn]
            | eapply Hquote; [reflexivity|exact Hnn] ].
Qed.

Theorem lex_refines : exists items, lexes bm 0 (txt s) items /\ lex_all bm s = Ret items /\ runs bm (lex s) items.
Proof.
  destruct (lexer_good (List.length (txt s)) (decompose s) 0 (txt s) (Nat.le_refl _)) as (items & Hl & Hlen & Hruns).
  - exists (a_init T). split; [apply refines_init|]. split; [apply a_inv_init|]. split; [right; reflexivity|].
    exists []. split; reflexivity.
  - exists items. split; [exact Hl|]. split; [|exact Hruns]. apply runs_collect; [exact Hruns|lia].
Qed.
End Lexer.

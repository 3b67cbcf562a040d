(** Props_Tool.v -- C73: the command line tool.  Vocabulary: SpecTool.v,
    SpecText.v for [tiled]. *)
From Verif Require Import Base Span Utf8 Selmaho Decompose Classify Lex SpecText SpecLex Cst CstRules CstApi CstMain SpecCst Tool SpecTool.
From Verif Require Import PegMeta ClassifyFacts Props_Decompose Props_Lex CstTree CstPrint Props_Cst.
From Coq Require Import Lia Arith.
Local Open Scope list_scope.

(** ** Trimming *)

Lemma is_white c : is_whitespace c = true <-> In c white.
Proof.
  split.
  - unfold is_whitespace. rewrite !orb_true_iff, !andb_true_iff, !N.leb_le, !N.eqb_eq. intros H. unfold white.
    assert (E : c = 9 \/ c = 10 \/ c = 11 \/ c = 12 \/ c = 13 \/ c = 32 \/ c = 133 \/ c = 160 \/ c = 5760 \/
      c = 8192 \/ c = 8193 \/ c = 8194 \/ c = 8195 \/ c = 8196 \/ c = 8197 \/ c = 8198 \/ c = 8199 \/ c = 8200 \/ c = 8201 \/ c = 8202 \/
      c = 8232 \/ c = 8233 \/ c = 8239 \/ c = 8287 \/ c = 12288) by lia.
    cbn [In]. repeat (destruct E as [->|E]; [tauto|]). subst c. tauto.
  - assert (K : forallb is_whitespace white = true) by reflexivity. rewrite forallb_forall in K. apply K.
Qed.

Lemma drop_spec l : exists a, l = a ++ drop_whitespace l /\ all_white a /\ forall c m, drop_whitespace l = c :: m -> ~ In c white.
Proof.
  induction l as [|c l (a & E & A & H)]; [exists []; repeat split; [constructor|discriminate]|]. cbn [drop_whitespace].
  destruct (is_whitespace c) eqn:W.
  - exists (c :: a). split; [cbn; f_equal; exact E|]. split; [|exact H]. constructor; [apply is_white, W|exact A].
  - exists []. split; [reflexivity|]. split; [constructor|]. intros c' m [= <- <-] K. apply is_white in K. congruence.
Qed.

Lemma drop_unique a m : all_white a -> (forall c m', m = c :: m' -> ~ In c white) -> drop_whitespace (a ++ m) = m.
Proof.
  intros A H. induction A as [|c a W A IH]; cbn [app drop_whitespace].
  - destruct m as [|c m]; [reflexivity|]. cbn. destruct (is_whitespace c) eqn:E; [|reflexivity].
    apply is_white in E. destruct (H c m eq_refl E).
  - apply is_white in W. rewrite W. exact IH.
Qed.

Lemma drop_white a : all_white a -> drop_whitespace a = [].
Proof. intros A. rewrite <- (app_nil_r a). apply drop_unique; [exact A|discriminate]. Qed.

Lemma all_white_rev a : all_white a -> all_white (rev a).
Proof. apply Forall_rev. Qed.

Lemma trim_unique t p a m b : trimmed t a m b -> txt (trim (mkstr p t)) = m.
Proof.
  intros (-> & A & B & H1 & H2). unfold trim. cbn [txt]. destruct m as [|c m].
  - cbn [app]. rewrite (drop_white (a ++ b)); [reflexivity|]. apply Forall_app. auto.
  - rewrite (drop_unique a ((c :: m) ++ b)); [|exact A|intros c' m' [= <- _]; exact (H1 c m eq_refl)].
    rewrite rev_app_distr, (drop_unique (rev b) (rev (c :: m))); [apply rev_involutive|apply all_white_rev, B|].
    intros x r E. apply (H2 x (rev r)). rewrite <- (rev_involutive (c :: m)), E. reflexivity.
Qed.

Lemma trim_exists t p : exists a b, trimmed t a (txt (trim (mkstr p t))) b.
Proof.
  unfold trim. cbn [txt]. destruct (drop_spec t) as (a & E & A & H). set (r := drop_whitespace t) in *.
  destruct (drop_spec (rev r)) as (b & E' & B & H'). set (m := drop_whitespace (rev r)) in *.
  assert (R : r = rev m ++ rev b) by (rewrite <- rev_app_distr, <- E', rev_involutive; reflexivity).
  exists a, (rev b). split; [rewrite E at 1; rewrite R at 1; reflexivity|]. split; [exact A|]. split; [apply all_white_rev, B|].
  split.
  - intros c m' K. apply (H c (m' ++ rev b)). rewrite R, K. reflexivity.
  - intros c m' K. apply (H' c (rev m')). rewrite <- (rev_involutive m), K, rev_app_distr. reflexivity.
Qed.

(** C73 What the tool works on is the input without the white space around it:
    places are counted from where that part begins. *)
Theorem C73_trimmed bm a buf stdin pre m post : trimmed stdin pre m post ->
  exists p, tool bm a false buf stdin = tool bm a false p m /\ txt (trim (mkstr buf stdin)) = m /\ trim (mkstr p m) = mkstr p m /\
    (m <> [] -> p = buf + blen pre).
Proof.
  intros T. pose proof (trim_unique stdin buf pre m post T) as E. exists (ptr (trim (mkstr buf stdin))).
  assert (I : forall p, trim (mkstr p m) = mkstr p m).
  { intros p. assert (K : txt (trim (mkstr p m)) = m).
    { apply (trim_unique m p [] m []). destruct T as (_ & _ & _ & T1 & T2). split; [rewrite app_nil_r; reflexivity|].
      repeat split; try constructor; assumption. }
    destruct (trim (mkstr p m)) as [q x] eqn:X. cbn in K. subst x. f_equal. unfold trim in X. cbn [ptr txt] in X.
    injection X as X _. destruct T as (_ & _ & _ & T1 & _).
    rewrite (drop_unique [] m (Forall_nil _) T1 : drop_whitespace m = m) in X. lia. }
  split; [|split; [exact E|split; [apply I|]]].
  2: { destruct T as (-> & A & _ & T1 & _). intros NE. unfold trim. cbn [ptr txt]. rewrite (drop_unique pre (m ++ post)); [|exact A|].
       - rewrite !blen_app. lia.
       - intros c r K. destruct m as [|x m']; [destruct NE; reflexivity|]. injection K as <- _. exact (T1 x m' eq_refl). }
  unfold tool, texts. cbn [map]. rewrite I.
  destruct (trim (mkstr buf stdin)) as [q x] eqn:X. cbn [txt ptr] in *. subst x. reflexivity.
Qed.
Print Assumptions C73_trimmed.

(** Every input has such a part. *)
Theorem C73_trim_exists stdin : exists pre m post, trimmed stdin pre m post.
Proof. destruct (trim_exists stdin 0) as (a & b & T). eauto. Qed.
Print Assumptions C73_trim_exists.

(** ** One text *)

Lemma each_total {A B} (f : A -> outcome B) (R : A -> B -> Prop) l : (forall x, In x l -> exists y, f x = Ret y /\ R x y) ->
  exists ys, each f l = Ret ys /\ Forall2 R l ys.
Proof.
  induction l as [|x l IH]; intros H; [exists []; split; [reflexivity|constructor]|].
  destruct (H x (or_introl eq_refl)) as (y & E & Hr). destruct IH as (ys & E' & F); [intros z Hz; apply H; right; exact Hz|].
  exists (y :: ys). cbn [each]. rewrite E. cbn [obind]. rewrite E'. split; [reflexivity|constructor; assumption].
Qed.

Lemma words_printed bm s ws : s_len s < 4294967296 -> decompose_all bm s = Ret ws ->
  exists es, each (with_input s) ws = Ret es /\ Forall2 (shows_word s) ws es.
Proof.
  intros H D. apply each_total. intros sp Hs. destruct (C05_words_proper bm s ws sp D H Hs) as (w & E & _).
  exists (w, sp). unfold with_input. rewrite E. split; [reflexivity|split; [reflexivity|exact E]].
Qed.

Lemma tokens_printed bm s items toks : s_len s < 4294967296 -> scalars (txt s) -> lex_all bm s = Ret items ->
  sequence_items items = inl toks -> exists es, each (token_with_input s) toks = Ret es /\ Forall2 (shows_token s) toks es.
Proof.
  intros H1 H2 L E. apply each_total. intros t Ht. destruct (C22_spans bm s items H1 H2 L) as [P _].
  apply sequence_tokens in E. subst items.
  destruct (P (IOk t) (tspan t)) as (w & Ew); [apply in_map, Ht|left; reflexivity|].
  exists (as_repr (selmaho t), experimental t, (w, tspan t)). unfold token_with_input, with_input. rewrite Ew.
  split; [reflexivity|]. repeat split. exact Ew.
Qed.

(** What is printed for a text, with each option: with [--decompose] all its words
    and what stands there; then a lexing error and nothing else, or with [--lex]
    all its tokens and what stands there, and with [--cst] the report of C40 and
    C71 and the size of the arena. *)
Theorem C73_printed bm a s : s_len s < 4294967296 -> scalars (txt s) ->
  exists ws es items report, decompose_all bm s = Ret ws /\ tiled true 0 (txt s) ws /\ Forall2 (shows_word s) ws es /\
    lex_all bm s = Ret items /\ main_cst bm (a_collapse a) s = Ret report /\
    match sequence_items items with
    | inr e => callback bm a s = Ret ((if a_decompose a then [ODecomposed es] else []) ++ [OLexError e]) /\ report = RLexError e
    | inl toks => exists ts, Forall2 (shows_token s) toks ts /\
        callback bm a s = Ret ((if a_decompose a then [ODecomposed es] else []) ++ (if a_lex a then [OLexed ts] else []) ++
                               (if a_cst a then [report_output report; OArena] else []))
    end.
Proof.
  intros H1 H2. destruct (C01_decompose_total bm s H1) as (ws & D). destruct (words_printed bm s ws H1 D) as (es & Ee & Fe).
  destruct (C21_lex_total bm s H1 H2) as (items & L & _). destruct (C40_no_panic bm (a_collapse a) s H1 H2) as (r & M).
  exists ws, es, items, r. split; [exact D|]. split; [exact (C04_tiled bm s ws D H1)|]. split; [exact Fe|]. split; [exact L|]. split; [exact M|].
  assert (Dec : (if a_decompose a then let! ws := decompose_all bm s in let! es := each (with_input s) ws in Ret [ODecomposed es] else Ret [])
    = Ret (if a_decompose a then [ODecomposed es] else [])).
  { destruct (a_decompose a); [|reflexivity]. rewrite D. cbn [obind]. rewrite Ee. reflexivity. }
  unfold callback. rewrite Dec. cbn [obind]. rewrite L. cbn [obind]. unfold main_cst, pipeline in M. rewrite L in M. cbn [obind] in M.
  destruct (sequence_items items) as [toks|e] eqn:S; [|split; [reflexivity|]; cbn [obind] in M; congruence].
  destruct (tokens_printed bm s items toks H1 H2 L S) as (ts & Et & Ft). exists ts. split; [exact Ft|].
  assert (Lx : (if a_lex a then let! es := each (token_with_input s) toks in Ret [OLexed es] else Ret []) = Ret (if a_lex a then [OLexed ts] else [])).
  { destruct (a_lex a); [|reflexivity]. rewrite Et. reflexivity. }
  rewrite Lx. cbn [obind]. destruct (a_cst a); [|reflexivity].
  destruct (cst_parse toks) as [p| |] eqn:P; cbn [obind] in M |- *; try discriminate. destruct p as [root|e]; cbn [obind] in M |- *.
  - destruct (print_tree (a_collapse a) s root) as [lines| |]; cbn [obind] in M |- *; try discriminate. injection M as <-. reflexivity.
  - destruct (location e) as [|t rest]; cbn [obind] in M |- *; [injection M as <-; reflexivity|].
    destruct (sel_eqb (selmaho t) S_AnyText); cbn [obind] in M |- *; [|injection M as <-; reflexivity].
    destruct (span_slice (tspan t) s) as [c|]; cbn [unwrap obind] in M |- *; [injection M as <-; reflexivity|discriminate].
Qed.
Print Assumptions C73_printed.

(** ** Sessions *)

Lemma blen_app' x y : blen (x ++ y) = blen x + blen y.
Proof. apply blen_app. Qed.

Lemma trim_small t p : blen t < 4294967296 -> scalars t -> s_len (trim (mkstr p t)) < 4294967296 /\ scalars (txt (trim (mkstr p t))).
Proof.
  intros H S. destruct (trim_exists t p) as (a & b & (E & _)). unfold s_len. set (m := txt (trim (mkstr p t))) in *. split.
  - rewrite E, !blen_app' in H. lia.
  - unfold scalars in *. rewrite E in S. apply Forall_app in S as [_ S]. apply Forall_app in S as [S _]. exact S.
Qed.

Lemma read_lines_concat l : forall acc, List.concat (read_lines l acc) = rev acc ++ l.
Proof.
  induction l as [|c l IH]; intros acc; cbn [read_lines].
  - destruct acc; cbn [List.concat]; rewrite ?app_nil_r; reflexivity.
  - destruct (c =? 10) eqn:E.
    + cbn [List.concat]. rewrite IH. cbn [rev app]. rewrite <- app_assoc. reflexivity.
    + rewrite IH. cbn [rev]. rewrite <- app_assoc. reflexivity.
Qed.

(** C73 The tool never fails, whatever the options and the input, read as a whole
    or line by line. *)
Theorem C73_no_panic bm a tty buf stdin : blen stdin < 4294967296 -> scalars stdin ->
  exists outs, tool bm a tty buf stdin = Ret outs.
Proof.
  intros H S. unfold tool. destruct (a_decompose a || a_lex a || a_cst a); [|eauto].
  destruct (each_total (callback bm a) (fun _ _ => True) (texts tty buf stdin)) as (outs & E & _).
  - intros x Hx. unfold texts in Hx. apply in_map_iff in Hx as (l & <- & Hl).
    assert (P : exists u v, stdin = u ++ l ++ v).
    { destruct tty; [|destruct Hl as [<-|[]]; exists [], []; rewrite app_nil_r; reflexivity].
      pose proof (read_lines_concat stdin []) as C. cbn in C. apply in_split in Hl as (u & v & E). rewrite E, concat_app in C. cbn [List.concat] in C.
      exists (List.concat u), (List.concat v). symmetry. exact C. }
    destruct P as (u & v & ->). rewrite !blen_app' in H. unfold scalars in S. apply Forall_app in S as [_ S]. apply Forall_app in S as [S _].
    destruct (trim_small l buf) as [T1 T2]; [lia|exact S|].
    destruct (C73_printed bm a _ T1 T2) as (ws & es & items & r & _ & _ & _ & _ & _ & K).
    destruct (sequence_items items) as [toks|e]; [destruct K as (ts & _ & K)|destruct K as [K _]]; eauto.
  - rewrite E. cbn [obind]. eauto.
Qed.
Print Assumptions C73_no_panic.

Lemma read_lines_line l rest : ~ In 10 l -> forall acc, read_lines (l ++ 10 :: rest) acc = (rev acc ++ l ++ [10]) :: read_lines rest [].
Proof.
  intros N. induction l as [|c l IH]; intros acc; cbn [app read_lines].
  - rewrite N.eqb_refl. cbn [rev]. reflexivity.
  - destruct (c =? 10) eqn:E; [apply N.eqb_eq in E; subst; destruct N; left; reflexivity|].
    rewrite IH; [|intros K; apply N; right; exact K]. cbn [rev]. rewrite <- app_assoc. reflexivity.
Qed.

Lemma read_lines_last l : ~ In 10 l -> forall acc, rev acc ++ l <> [] -> read_lines l acc = [rev acc ++ l].
Proof.
  intros N. induction l as [|c l IH]; intros acc NE; cbn [read_lines].
  - rewrite app_nil_r in *. destruct acc; [destruct NE; reflexivity|reflexivity].
  - destruct (c =? 10) eqn:E; [apply N.eqb_eq in E; subst; destruct N; left; reflexivity|].
    rewrite IH; [cbn [rev]; rewrite <- app_assoc; reflexivity|intros K; apply N; right; exact K|].
    cbn [rev]. rewrite <- app_assoc. destruct (rev acc); discriminate.
Qed.

(** At a terminal the lines are treated one by one: what is printed for a line
    does not depend on the lines before or after it; it is what is printed when
    that line is the whole (piped) input. *)
Theorem C73_lines bm a buf l rest outs : (a_decompose a || a_lex a || a_cst a) = true -> ~ In 10 l ->
  tool bm a true buf (l ++ 10 :: rest) = Ret outs <->
  exists o1 o2, tool bm a false buf (l ++ [10]) = Ret o1 /\ tool bm a true buf rest = Ret o2 /\ outs = o1 ++ o2.
Proof.
  intros F N. unfold tool. rewrite F. unfold texts. rewrite (read_lines_line l rest N []). cbn [rev app map each].
  destruct (callback bm a (trim (mkstr buf (l ++ [10])))) as [o| |]; cbn [obind].
  2: { split; [discriminate|]. intros (o1 & o2 & K & _). discriminate. }
  2: { split; [discriminate|]. intros (o1 & o2 & K & _). discriminate. }
  destruct (each (callback bm a) (map (fun l => trim (mkstr buf l)) (read_lines rest []))) as [os| |]; cbn [obind List.concat].
  - split; [intros [= <-]; eexists _, _; split; [reflexivity|split; [reflexivity|]]; rewrite app_nil_r; reflexivity|].
    intros (o1 & o2 & [= <-] & [= <-] & ->). rewrite app_nil_r. reflexivity.
  - split; [discriminate|]. intros (o1 & o2 & _ & K & _). discriminate.
  - split; [discriminate|]. intros (o1 & o2 & _ & K & _). discriminate.
Qed.
Print Assumptions C73_lines.

(** The last line needs no newline. *)
Theorem C73_last_line bm a buf l : ~ In 10 l -> l <> [] -> tool bm a true buf l = tool bm a false buf l.
Proof.
  intros N E. assert (T : texts true buf l = texts false buf l) by (unfold texts; f_equal; exact (read_lines_last l N [] E)).
  unfold tool. rewrite T. reflexivity.
Qed.
Print Assumptions C73_last_line.

(** Nothing is done when nothing is asked for. *)
Theorem C73_usage bm a tty buf stdin : tool bm a tty buf stdin = Ret [OUsage] <-> a_decompose a = false /\ a_lex a = false /\ a_cst a = false.
Proof.
  unfold tool. destruct a as [d x c k]. cbn [a_decompose a_lex a_cst]. destruct (d || x || c) eqn:E.
  - split; [|intros (-> & -> & ->); discriminate]. intros H. exfalso.
    destruct (each (callback bm (mkargs d x c k)) (texts tty buf stdin)) as [outs| |] eqn:O; cbn [obind] in H; try discriminate.
    injection H as H. revert outs O H. induction (texts tty buf stdin) as [|t ts IH]; intros outs O H; cbn [each] in O.
    + injection O as <-. discriminate.
    + destruct (callback bm (mkargs d x c k) t) as [o| |] eqn:C; cbn [obind] in O; try discriminate.
      destruct (each (callback bm (mkargs d x c k)) ts) as [os| |] eqn:T; cbn [obind] in O; try discriminate. injection O as <-. cbn [List.concat] in H.
      assert (U : ~ In OUsage o).
      { clear - C. unfold callback in C. cbn [a_decompose a_lex a_cst a_collapse] in C.
        assert (X : forall (b : bool) (m : outcome (list output)) l, (m = Ret l -> ~ In OUsage l) -> (if b then m else Ret []) = Ret l -> ~ In OUsage l).
        { intros [|] m l Hm Hl; [auto|]. injection Hl as <-. intros []. }
        match type of C with obind ?m _ = _ => destruct m as [dec| |] eqn:D; cbn [obind] in C; try discriminate end.
        apply X in D; [|intros K; destruct (decompose_all bm t) as [ws| |]; cbn [obind] in K; try discriminate;
          destruct (each (with_input t) ws) as [es| |]; cbn [obind] in K; try discriminate; injection K as <-; intros [Z|[]]; discriminate].
        destruct (lex_all bm t) as [items| |]; cbn [obind] in C; try discriminate.
        destruct (sequence_items items) as [toks|e]; [|injection C as <-; rewrite in_app_iff; intros [Z|[Z|[]]]; [auto|discriminate]].
        match type of C with obind ?m _ = _ => destruct m as [lx| |] eqn:L; cbn [obind] in C; try discriminate end.
        apply X in L; [|intros K; destruct (each (token_with_input t) toks) as [es| |]; cbn [obind] in K; try discriminate; injection K as <-; intros [Z|[]]; discriminate].
        match type of C with obind ?m _ = _ => destruct m as [ct| |] eqn:M; cbn [obind] in C; try discriminate end.
        apply X in M.
        - injection C as <-. rewrite !in_app_iff. tauto.
        - intros K. destruct (cst_parse toks) as [[root|e]| |]; cbn [obind] in K; try discriminate.
          + destruct (print_tree k t root) as [ls| |]; cbn [obind] in K; try discriminate. injection K as <-. intros [Z|[Z|[]]]; discriminate.
          + destruct (location e) as [|u r]; cbn [obind] in K; [injection K as <-; intros [Z|[Z|[]]]; discriminate|].
            destruct (sel_eqb (selmaho u) S_AnyText); cbn [obind] in K; [|injection K as <-; intros [Z|[Z|[]]]; discriminate].
            destruct (span_slice (tspan u) t); cbn [unwrap obind] in K; [injection K as <-; intros [Z|[Z|[]]]; discriminate|discriminate]. }
      destruct o as [|y o]; [exact (IH os eq_refl H)|]. cbn [app] in H. injection H as -> _. apply U. left. reflexivity.
  - split; [|reflexivity]. intros _. destruct d, x, c; try discriminate. auto.
Qed.
Print Assumptions C73_usage.

(** ** Cases *)
Example C73_example : tool Debug (mkargs true true true true) false 0 (lit "  mi klama" ++ [10]) = Ret [
    ODecomposed [(mkstr 2 (lit "mi"), mkspan 0 2); (mkstr 5 (lit "klama"), mkspan 3 8)];
    OLexed [("KOhA"%string, false, (mkstr 2 (lit "mi"), mkspan 0 2)); ("gismu"%string, false, (mkstr 5 (lit "klama"), mkspan 3 8))];
    OTree [mkline 0 "Sentence" false (Some (mkspan 0 8, mkstr 2 (lit "mi klama")));
           mkline 2 "KOhA" false (Some (mkspan 0 2, mkstr 2 (lit "mi")));
           mkline 2 "gismu" false (Some (mkspan 3 8, mkstr 5 (lit "klama")))];
    OArena].
Proof. vm_compute. reflexivity. Qed.

Example C73_session : tool Release (mkargs false false true true) true 0 (lit "mi" ++ [10; 10] ++ lit "me'oi") =
  Ret [OTree [mkline 0 "KOhA" false (Some (mkspan 0 2, mkstr 0 (lit "mi")))]; OArena;
       OTree [mkline 0 "ParagraphItem::Empty" false None]; OArena;
       OLexError (PauseDelimitedQuoteEof (mkspan 0 5))].
Proof. vm_compute. reflexivity. Qed.

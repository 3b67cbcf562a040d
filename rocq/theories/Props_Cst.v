(** Props_Cst.v -- the properties C35-C45 and C49-C54: the parser and its trees.
    Vocabulary: SpecCst.v. *)
From Verif Require Import Base Span Utf8 Selmaho Classify Lex SpecText ClassifyFacts SpecLex Props_Lex Cst CstRules CstApi CstMain SpecCst.
From Verif Require Import CstMeta CstTotal CstTree CstBalance CstAuto CstPrint CstShape CstError CstWitness CstThms CstNodes.
From Coq Require Import Lia Arith Sorted.

(** Tokens of an example text. *)
Definition lexed (s : string) : list token :=
  match lex_all Debug (mkstr 0 (lit s)) with Ret items => tokens items | _ => [] end.

(** C35 Parsing is total: there is a tree or an error, for every token list. *)
Theorem C35_total toks : exists r, cst_parse toks = Ret r.
Proof. exact (cst_parse_run toks). Qed.
Print Assumptions C35_total.

Example C35_example : accepted (lexed "le nu mi broda kei cu brode") /\ rejected (lexed "broda ku'o") /\ accepted [] /\
  rejected [plain S_Si; plain S_AnyText].
Proof. repeat split; eexists; vm_compute; reflexivity. Qed.

(** C36 The tree shows exactly the tokens. *)
Theorem C36_leaves toks root : cst_parse toks = Ret (inl root) -> stands_for root toks.
Proof. intros H. apply covers_stands, root_covers, H. Qed.
Print Assumptions C36_leaves.

(** C39 Walking through the tree meets every token once, in order ... *)
Theorem C39_traversal toks root nodes : cst_parse toks = Ret (inl root) -> visits root nodes ->
  Forall2 shows (filter is_leaf nodes) toks.
Proof. intros H Hv. eapply visits_leaves; [exact Hv|apply root_covers, H]. Qed.
Print Assumptions C39_traversal.

(** ... there is exactly one such walk ... *)
Theorem C39_unique v : exists l, visits v l /\ forall l', visits v l' -> l' = l.
Proof. destruct (visits_exists v) as (l & H). exists l. split; [exact H|]. intros l' H'. symmetry. exact (visits_det v l H l' H'). Qed.
Print Assumptions C39_unique.

(** ... and the nodes printed, collapsed or not, include every token once, in order. *)
Theorem C39_printed toks root collapse nodes : cst_parse toks = Ret (inl root) -> prints collapse 0 root nodes ->
  Forall2 shows (filter is_leaf (map snd nodes)) toks.
Proof. intros H Hp. eapply prints_leaves; [exact Hp|apply root_covers, H]. Qed.
Print Assumptions C39_printed.

Theorem C39_prints_exist collapse v : exists nodes, prints collapse 0 v nodes.
Proof. exact (prints_exists collapse v). Qed.
Print Assumptions C39_prints_exist.

(** C37 Locations of a node: both there, and the extent of the tokens it shows,
    or neither, and it shows none. *)
Theorem C37_locations toks root nodes v : cst_parse toks = Ret (inl root) -> visits root nodes -> In v nodes ->
  exists p m q, toks = p ++ m ++ q /\ stands_for v m /\
    start_location v = first_start m /\ end_location v = last_end m /\
    (start_location v = None <-> m = []) /\ (end_location v = None <-> m = []).
Proof.
  intros H Hv Hin. pose proof (visits_covers root nodes Hv toks (root_covers _ _ H)) as F. rewrite Forall_forall in F.
  destruct (F v Hin) as (p & m & q & -> & Hc). destruct (covers_loc v m Hc) as [L1 L2]. rewrite L1, L2.
  exists p, m, q. split; [reflexivity|]. split; [apply covers_stands, Hc|]. repeat split; intros E; subst; auto.
  - destruct m; [reflexivity|discriminate].
  - destruct m as [|t m]; [reflexivity|]. destruct (last_end_cons t m E).
Qed.
Print Assumptions C37_locations.

(** C38 The experimental flag.  It can be missing: the words of a zoi quote lose
    theirs (here ne'oi is taken for the ending delimiter, cf. C45). *)
Theorem C38_refuted : exists toks root nodes v p m q, cst_parse toks = Ret (inl root) /\ visits root nodes /\ In v nodes /\
  toks = p ++ m ++ q /\ stands_for v m /\ existsb experimental m = true /\ node_experimental v = false /\
  exists s items, lex_all Debug (mkstr 0 (lit s)) = Ret items /\ toks = tokens items.
Proof.
  set (toks := lexed "zoi gy gy xo'e").
  destruct (cst_parse_run toks) as ([root|e] & H); [|vm_compute in H; discriminate].
  destruct (visits_exists root) as (nodes & Hv).
  exists toks, root, nodes, root, [], toks, []. split; [exact H|]. split; [exact Hv|]. split; [inversion Hv; left; reflexivity|].
  split; [rewrite app_nil_r; reflexivity|]. split; [apply (C36_leaves _ _ H)|]. split; [vm_compute; reflexivity|].
  split; [vm_compute in H; injection H as <-; vm_compute; reflexivity|].
  exists "zoi gy gy xo'e"%string. eexists. split; [vm_compute; reflexivity|vm_compute; reflexivity].
Qed.
Print Assumptions C38_refuted.

(** What holds: the flag is never wrongly set ... *)
Theorem C38_set_partial toks root nodes v : cst_parse toks = Ret (inl root) -> visits root nodes -> In v nodes ->
  exists p m q, toks = p ++ m ++ q /\ stands_for v m /\
    (node_experimental v = true -> existsb experimental m = true).
Proof.
  intros H Hv Hin. pose proof (visits_covers root nodes Hv toks (root_covers _ _ H)) as F. rewrite Forall_forall in F.
  destruct (F v Hin) as (p & m & q & E & Hc). exists p, m, q. split; [exact E|]. split; [apply covers_stands, Hc|].
  apply covers_experimental_le, Hc.
Qed.
Print Assumptions C38_set_partial.

(** ... and it is right unless a zoi is followed by an experimental word within
    three tokens ... *)
Theorem C38_flag_partial toks root nodes v : cst_parse toks = Ret (inl root) -> visits root nodes -> In v nodes ->
  quotes_plain toks ->
  exists p m q, toks = p ++ m ++ q /\ stands_for v m /\ node_experimental v = existsb experimental m.
Proof.
  intros H Hv Hin N. pose proof (visits_coversR keeps root nodes Hv toks (root_keeps _ _ H N)) as F. rewrite Forall_forall in F.
  destruct (F v Hin) as (p & m & q & E & Hc). exists p, m, q. split; [exact E|].
  split; [apply covers_stands, keeps_covers, Hc|apply keeps_flag, Hc].
Qed.
Print Assumptions C38_flag_partial.

(** ... which cannot happen in the tokens of a text whose zoi quotes all have a text. *)
Lemma sequence_tokens items toks : sequence_items items = inl toks -> items = map IOk toks.
Proof.
  revert toks. induction items as [|[t|e] items IH]; intros toks E; cbn in E; [injection E as <-; reflexivity| |discriminate].
  destruct (sequence_items items) as [ts|e]; [|discriminate]. injection E as <-. rewrite (IH ts eq_refl). reflexivity.
Qed.

(** The tokens after a zoi in the output of the lexer. *)
Lemma lexed_zoi bm s items toks p z q : s_len s < 4294967296 -> scalars (txt s) -> lex_all bm s = Ret items ->
  sequence_items items = inl toks -> toks = p ++ z :: q -> selmaho z = S_Zoi ->
  exists d1 r, q = d1 :: r /\ selmaho d1 = S_ZoiDelimiter /\
    ((exists d2 r', r = d2 :: r' /\ selmaho d2 = S_ZoiDelimiter) \/
     exists t d2 r', r = t :: d2 :: r' /\ selmaho t = S_AnyText /\ selmaho d2 = S_ZoiDelimiter).
Proof.
  intros H1 H2 Hi E -> Hz. apply sequence_tokens in E. rewrite map_app in E. cbn [map] in E.
  destruct (C24_quote bm s items (map IOk p) z (map IOk q) H1 H2 Hi E (or_introl (eq_sym Hz))) as (x & g & D & r & dsp & _ & _ & _ & _ & [[_ K]|(qs & e & zz & later & _ & _ & K)]).
  - destruct q as [|t q]; discriminate.
  - destruct q as [|d1 q]; [discriminate|]. cbn [map] in K. injection K as K1 K. exists d1, q. split; [reflexivity|].
    split; [rewrite K1; reflexivity|]. destruct qs as [|q0 qs]; cbn [quoted_text app] in K.
    + left. destruct q as [|d2 q]; [discriminate|]. injection K as K2 K. exists d2, q. split; [reflexivity|]. rewrite K2. reflexivity.
    + right. destruct q as [|t [|d2 q]]; [discriminate|destruct qs; discriminate|].
      injection K as K2 K3 K.
      exists t, d2, q. split; [reflexivity|]. rewrite K2, K3. split; reflexivity.
Qed.

Theorem C38_lexed_partial bm s items toks root nodes v : s_len s < 4294967296 -> scalars (txt s) ->
  lex_all bm s = Ret items -> sequence_items items = inl toks -> quotes_texts toks ->
  cst_parse toks = Ret (inl root) -> visits root nodes -> In v nodes ->
  exists p m q, toks = p ++ m ++ q /\ stands_for v m /\ node_experimental v = existsb experimental m.
Proof.
  intros H1 H2 Hi E N H Hv Hin. apply (C38_flag_partial toks root nodes v H Hv Hin).
  intros p z d1 t d2 q Et Hz. destruct (N p z _ Et Hz) as (a & b & c & r & [= <- <- <- <-] & Ha & Hb & Hc).
  assert (F : forall u, In u toks -> In (selmaho u) [S_AnyText; S_ZoiDelimiter] -> experimental u = false).
  { intros u Hu Hs. destruct (C29_flags bm s items u H1 H2 Hi) as [[_ G]|[G _]]; [|exact G|tauto].
    rewrite (sequence_tokens _ _ E). apply in_map, Hu. }
  subst toks. rewrite !F; auto; try (apply in_or_app; right; cbn; tauto); rewrite ?Ha, ?Hb, ?Hc; cbn; tauto.
Qed.
Print Assumptions C38_lexed_partial.

Example C37_C38_example : exists root nodes v, cst_parse (lexed "mi xo'e do") = Ret (inl root) /\ visits root nodes /\
  In v nodes /\ node_experimental v = true /\ start_location v = Some 0 /\ end_location v = Some 10.
Proof.
  destruct (cst_parse_run (lexed "mi xo'e do")) as ([root|e] & H); [|vm_compute in H; discriminate].
  destruct (visits_exists root) as (nodes & Hv). exists root, nodes, root. split; [exact H|]. split; [exact Hv|].
  split; [inversion Hv; left; reflexivity|]. vm_compute in H. injection H as <-. vm_compute. auto.
Qed.

(** C40 The example program never panics, with or without collapsing; for a
    text that is accepted it prints, for every node in order, the right line. *)
Lemma lexed_sliceable bm s items toks : s_len s < 4294967296 -> scalars (txt s) -> lex_all bm s = Ret items ->
  sequence_items items = inl toks -> sliceable s toks.
Proof.
  intros H1 H2 H E. destruct (C22_spans bm s items H1 H2 H) as [P1 P2].
  apply sequence_tokens in E. subst items. split.
  - intros t Ht. apply (P1 (IOk t)); [apply in_map, Ht|left; reflexivity].
  - assert (T : tokens (map IOk toks) = toks) by (clear; induction toks as [|t l IH]; [reflexivity|]; change (t :: tokens (map IOk l) = t :: l); rewrite IH; reflexivity).
    rewrite T in P2. exact P2.
Qed.

Theorem C40_no_panic bm collapse s : s_len s < 4294967296 -> scalars (txt s) -> exists r, main_cst bm collapse s = Ret r.
Proof.
  intros H1 H2. unfold main_cst, pipeline. destruct (C21_lex_total bm s H1 H2) as (items & Hi & _). rewrite Hi. cbn [obind].
  destruct (sequence_items items) as [toks|e] eqn:E; [|cbn; eauto].
  pose proof (lexed_sliceable bm s items toks H1 H2 Hi E) as Hs.
  destruct (cst_parse_run toks) as ([root|e] & H); rewrite H; cbn [obind].
  - destruct (print_node_ok s toks collapse Hs (tree_size root) 0 root toks) as (lines & nodes & Hp & _).
    + rewrite <- tree_size_size. apply Nat.le_refl.
    + apply root_covers, H.
    + exists [], []. rewrite app_nil_r. reflexivity.
    + unfold print_tree. rewrite Hp. cbn [obind]. eauto.
  - destruct (location e) as [|t r] eqn:El; [eauto|]. destruct (sel_eqb (selmaho t) S_AnyText); [|eauto].
    destruct (err_ok_suffix toks e (reported_err_ok toks e H)) as (m & Em). rewrite El in Em.
    destruct (proj1 Hs t) as (w & Hw); [rewrite Em; apply in_or_app; right; left; reflexivity|]. rewrite Hw. cbn. eauto.
Qed.
Print Assumptions C40_no_panic.

Theorem C40_lines bm collapse s items toks root : s_len s < 4294967296 -> scalars (txt s) ->
  lex_all bm s = Ret items -> sequence_items items = inl toks -> cst_parse toks = Ret (inl root) ->
  exists nodes lines, prints collapse 0 root nodes /\ main_cst bm collapse s = Ret (RTree lines) /\
    Forall2 (line_for s toks) nodes lines.
Proof.
  intros H1 H2 Hi E H. pose proof (lexed_sliceable bm s items toks H1 H2 Hi E) as Hs.
  destruct (print_node_ok s toks collapse Hs (tree_size root) 0 root toks) as (lines & nodes & Hp & Hn & Hl).
  - rewrite <- tree_size_size. apply Nat.le_refl.
  - apply root_covers, H.
  - exists [], []. rewrite app_nil_r. reflexivity.
  - exists nodes, lines. split; [exact Hn|]. split; [|exact Hl]. unfold main_cst, pipeline. rewrite Hi. cbn [obind]. rewrite E. cbn [obind].
    rewrite H. cbn [obind]. unfold print_tree. rewrite Hp. reflexivity.
Qed.
Print Assumptions C40_lines.

Example C40_example : main_cst Debug true (mkstr 0 (lit "mi broda")) = Ret (RTree [
    mkline 0 "Sentence" false (Some (mkspan 0 8, mkstr 0 (lit "mi broda")));
    mkline 2 "KOhA" false (Some (mkspan 0 2, mkstr 0 (lit "mi")));
    mkline 2 "gismu" false (Some (mkspan 3 8, mkstr 3 (lit "broda")))]) /\
  (exists lines, main_cst Release false (mkstr 0 (lit "mi broda")) = Ret (RTree lines) /\ List.length lines = 44%nat) /\
  (exists t, main_cst Debug true (mkstr 0 (lit "mi qqq")) = Ret (RUnlexed t (mkstr 3 (lit "qqq")))).
Proof. split; [vm_compute; reflexivity|]. split; eexists; [split|]; vm_compute; reflexivity. Qed.

(** C41 Every error says how much of the input was left: its location is a final
    part of the token list; an error about an unexpected token names the token
    just before its location, which has none of the expected classes; one about
    a missing token is at the end. *)
Theorem C41_located toks e : cst_parse toks = Ret (inr e) ->
  (exists m, toks = m ++ location e) /\
  match cerr e with
  | ExpectedGot l (Some t) => (exists m, toks = m ++ t :: location e) /\ ~ In (selmaho t) l
  | ExpectedGot _ None => location e = []
  | _ => True
  end.
Proof.
  intros H. apply reported_err_ok in H. split; [exact (err_ok_suffix toks e H)|].
  unfold err_ok in H. destruct (cerr e) as [l [t|]| | |]; auto.
Qed.
Print Assumptions C41_located.

(** Without tei, ga'o and lo'u the only error there is says that input is left
    over, and its location is what is left. *)
Theorem C41_rest toks e : cst_parse toks = Ret (inr e) ->
  ~ contains S_Tei toks -> ~ contains S_Gaho toks -> ~ contains S_Lohu toks ->
  cerr e = Nom KEof /\ location e <> [] /\ exists m, toks = m ++ location e.
Proof.
  intros H N1 N2 N3. destruct (reported_quiet toks e H N1 N2 N3) as [E1 E2]. split; [exact E1|]. split; [exact E2|].
  exact (err_ok_suffix toks e (reported_err_ok toks e H)).
Qed.
Print Assumptions C41_rest.

Example C41_example : exists e, cst_parse (lexed "mi broda ku'o do") = Ret (inr e) /\ cerr e = Nom KEof /\ map selmaho (location e) = [S_Kuho; S_Koha].
Proof. eexists. split; [vm_compute; reflexivity|]. vm_compute. auto. Qed.

(** The documentation of [WithLocation] says the location is the tokens that
    were remaining when the error occurred.  For an unexpected token that is
    not so: the token itself is missing from them. *)
Theorem C41_offending_token_refuted : exists toks e t l, cst_parse toks = Ret (inr e) /\
  cerr e = ExpectedGot l (Some t) /\ location e = [] /\ exists m, toks = m ++ [t].
Proof.
  exists (lexed "tei by broda"). do 3 eexists. split; [vm_compute; reflexivity|]. split; [reflexivity|]. split; [reflexivity|].
  exists (firstn 2 (lexed "tei by broda")). vm_compute. reflexivity.
Qed.
Print Assumptions C41_offending_token_refuted.

(** C49 Which errors there are: left-over input, a missing word after lo'u, a word
    inside tei or ga'o that is made part of a longer one by bu or zei, and a
    missing foi or ga'o.  All others are only used internally. *)
Theorem C49_kinds toks e : cst_parse toks = Ret (inr e) ->
  cerr e = Nom KEof \/ cerr e = Nom KNot \/ exists s g, In s [S_Foi; S_Gaho] /\ cerr e = ExpectedGot [s] g.
Proof. exact (reported_kind toks e). Qed.
Print Assumptions C49_kinds.

Example C49_example : (exists l, cst_parse (lexed "ku") = Ret (inr (mkerr l (Nom KEof)))) /\
  (exists l, cst_parse (lexed "mi ga'o bi'i ga'o zei do") = Ret (inr (mkerr l (Nom KNot)))) /\
  (exists l, cst_parse (lexed "mi ga'o bi'i do") = Ret (inr (mkerr l (ExpectedGot [S_Gaho] (Some (mktok false S_Koha (mkspan 13 15))))))).
Proof. repeat split; eexists; vm_compute; reflexivity. Qed.

(** C42 Merging of errors.  It is not associative ... *)
Theorem C42_refuted : exists a b c, location a = location b /\ location b = location c /\
  err_or (err_or a b) c <> err_or a (err_or b c).
Proof.
  exists (mkerr [] (ExpectedGot [S_Ku] None)), (mkerr [] (Nom KEof)), (mkerr [] (ExpectedGot [S_Kei] None)).
  split; [reflexivity|]. split; [reflexivity|]. vm_compute. discriminate.
Qed.
Print Assumptions C42_refuted.

(** What holds: the error further on wins; at the same place two errors about
    the same unexpected token become one that lists all expected classes, first
    those of the first, and otherwise the second wins ... *)
Theorem C42_or_partial a b :
  ((List.length (location a) < List.length (location b))%nat -> err_or a b = a) /\
  ((List.length (location b) < List.length (location a))%nat -> err_or a b = b) /\
  (location a = location b -> forall l l' g, cerr a = ExpectedGot l g -> cerr b = ExpectedGot l' g ->
     err_or a b = mkerr (location a) (ExpectedGot (l ++ l') g)) /\
  (location a = location b -> (forall l l' g, ~ (cerr a = ExpectedGot l g /\ cerr b = ExpectedGot l' g)) -> err_or a b = b).
Proof. exact (err_or_spec a b). Qed.
Print Assumptions C42_or_partial.

(** ... and it is associative on errors which, where their locations agree, are
    about the same unexpected token. *)
Theorem C42_assoc_partial a b c :
  (forall x y, In x [a; b; c] -> In y [a; b; c] -> List.length (location x) = List.length (location y) ->
     location x = location y /\ exists l l' g, cerr x = ExpectedGot l g /\ cerr y = ExpectedGot l' g) ->
  err_or (err_or a b) c = err_or a (err_or b c).
Proof. exact (err_or_assoc a b c). Qed.
Print Assumptions C42_assoc_partial.

Example C42_example : let e s := mkerr [plain S_Ku] (ExpectedGot [s] (Some (plain S_Kei))) in
  err_or (err_or (e S_Ku) (e S_Kei)) (mkerr [plain S_Koha; plain S_Ku] (Nom KEof)) = mkerr [plain S_Ku] (ExpectedGot [S_Ku; S_Kei] (Some (plain S_Kei))) /\
  err_or (err_or (e S_Ku) (e S_Kei)) (e S_Le) = err_or (e S_Ku) (err_or (e S_Kei) (e S_Le)).
Proof. split; vm_compute; reflexivity. Qed.

(** C43 Words the grammar has no use for.  [u] must not be inside a zoi or lo'u
    quote, follow zo or zei, or be made part of a word by bu or zei. *)
Theorem C43_rejected toks a u b : toks = a ++ u :: b -> In (selmaho u) unusable ->
  ~ contains S_Zoi a -> ~ contains S_Lohu a -> ~ ends_in [S_Zo; S_Zei] a -> ~ taken_up b -> rejected toks.
Proof. exact (unusable_word toks a u b). Qed.
Print Assumptions C43_rejected.

(** In particular in texts without quoting words. *)
Theorem C43_unquoted toks s : In s unusable -> contains s toks -> ~ quotes toks -> rejected toks.
Proof.
  intros Hs (u & Hu & Es) N. apply in_split in Hu as (a & b & E).
  assert (K : forall q, In q quoting -> ~ contains q toks) by (intros q Hq Hc; apply N; exists q; auto).
  assert (Ka : forall q, In q quoting -> ~ contains q a).
  { intros q Hq (t & Ht & Et). apply (K q Hq). exists t. split; [rewrite E; apply in_or_app; auto|exact Et]. }
  apply (unusable_word toks a u b); auto.
  - rewrite Es. exact Hs.
  - apply Ka. cbn. tauto.
  - apply Ka. cbn. tauto.
  - intros (p & t & -> & Ht). apply (Ka (selmaho t)); [|exists t; split; [apply in_or_app; right; left; reflexivity|reflexivity]].
    cbn in *. intuition.
  - intros (x & t & y & -> & _ & Ht). apply (K (selmaho t)); [cbn in *; intuition|].
    exists t. split; [|reflexivity]. rewrite E. apply in_or_app. right. right. apply in_or_app. right. left. reflexivity.
Qed.
Print Assumptions C43_unquoted.

(** The list is complete: every other class, except the quoting words and le'u,
    is used in some text without quoting words. *)
Theorem C43_complete s : ordinary s -> exists toks, accepted toks /\ ~ quotes toks /\ contains s toks.
Proof. exact (usable s). Qed.
Print Assumptions C43_complete.

Example C43_example : In S_AnyText unusable /\ In S_UnknownCmavo unusable /\ In S_Si unusable /\ In S_Kuhau unusable /\
  rejected (lexed "zo si mi si broda") /\ accepted (lexed "zo si mi broda") /\ accepted (lexed "ku'au bu broda") /\ ordinary S_Koha.
Proof.
  do 4 (split; [cbn; tauto|]).
  split; [eexists; vm_compute; reflexivity|]. split; [eexists; vm_compute; reflexivity|]. split; [eexists; vm_compute; reflexivity|].
  split; [|split]; [|discriminate|]; apply mem_notin; vm_compute; reflexivity.
Qed.

(** C44 lo'u without le'u after it. *)
Theorem C44_unclosed toks a u b : toks = a ++ u :: b -> selmaho u = S_Lohu ->
  ~ contains S_Zoi a -> ~ ends_in [S_Zo; S_Zei] a -> ~ contains S_Lehu b -> ~ taken_up b -> rejected toks.
Proof. exact (lohu_word toks a u b). Qed.
Print Assumptions C44_unclosed.

(** Conversely le'u needs a quoting word. *)
Theorem C44_lehu toks : contains S_Lehu toks -> ~ quotes toks -> rejected toks.
Proof. exact (lehu_word toks). Qed.
Print Assumptions C44_lehu.

Example C44_example : rejected (lexed "lo'u mi do") /\ accepted (lexed "lo'u mi si lo'u le'u broda") /\ accepted (lexed "zo lo'u broda") /\
  rejected (lexed "lo'u mi le'u lo'u do") /\ rejected (lexed "mi broda le'u").
Proof. repeat split; eexists; vm_compute; reflexivity. Qed.

(** C45 A zoi quote with empty text makes the parser take the ending delimiter for
    the text, and the word after it for the ending delimiter. *)
Theorem C45_refuted : exists toks root nodes z d1 d2 t, cst_parse toks = Ret (inl root) /\ visits root nodes /\
  toks = [z; d1; d2; t] /\ selmaho t = S_Koha /\
  In (VNode "ZoiSumti" [VTok z; VSpan "ZoiDelimiter" (tspan d1); VSpan "ZoiText" (tspan d2); VSpan "ZoiDelimiter" (tspan t)]) nodes /\
  toks = lexed "zoi gy gy mi".
Proof.
  set (toks := lexed "zoi gy gy mi"). destruct (cst_parse_run toks) as ([root|e] & H); [|vm_compute in H; discriminate].
  exists toks, root, (walk (size root) root), (nth 0 toks (plain S_Ku)), (nth 1 toks (plain S_Ku)), (nth 2 toks (plain S_Ku)), (nth 3 toks (plain S_Ku)).
  split; [exact H|]. split; [apply walk_visits, Nat.le_refl|]. split; [vm_compute; reflexivity|]. split; [vm_compute; reflexivity|].
  split; [|reflexivity]. vm_compute in H. injection H as <-. vm_compute. repeat (first [left; reflexivity|right]).
Qed.
Print Assumptions C45_refuted.

(** In every tree a zoi quote consists of zoi and the three tokens after it ... *)
Theorem C45_shape_partial toks root nodes fs : cst_parse toks = Ret (inl root) -> visits root nodes -> In (VNode "ZoiSumti" fs) nodes ->
  exists p q z d1 t d2, toks = p ++ z :: d1 :: t :: d2 :: q /\ selmaho z = S_Zoi /\
    fs = [VTok z; VSpan "ZoiDelimiter" (tspan d1); VSpan "ZoiText" (tspan t); VSpan "ZoiDelimiter" (tspan d2)].
Proof. exact (zoi_node toks root nodes fs). Qed.
Print Assumptions C45_shape_partial.

(** ... so in the tokens of a text without empty zoi quotes the delimiters are
    delimiters, and the text is the text. *)
Theorem C45_delimiters_partial bm s items toks root nodes fs : s_len s < 4294967296 -> scalars (txt s) ->
  lex_all bm s = Ret items -> sequence_items items = inl toks ->
  (forall p z d e q, toks = p ++ z :: d :: e :: q -> selmaho z = S_Zoi -> selmaho e <> S_ZoiDelimiter) ->
  cst_parse toks = Ret (inl root) -> visits root nodes -> In (VNode "ZoiSumti" fs) nodes ->
  exists p q z d1 t d2, toks = p ++ z :: d1 :: t :: d2 :: q /\ selmaho z = S_Zoi /\
    selmaho d1 = S_ZoiDelimiter /\ selmaho t = S_AnyText /\ selmaho d2 = S_ZoiDelimiter /\
    fs = [VTok z; VSpan "ZoiDelimiter" (tspan d1); VSpan "ZoiText" (tspan t); VSpan "ZoiDelimiter" (tspan d2)].
Proof.
  intros H1 H2 Hi E N H Hv Hin. destruct (zoi_node toks root nodes fs H Hv Hin) as (p & q & z & d1 & t & d2 & Et & Hz & Hf).
  destruct (lexed_zoi bm s items toks p z _ H1 H2 Hi E Et Hz) as (d & r & [= <- <-] & Hd & [(d' & r' & [= <- <-] & Hd')|(t' & d' & r' & [= <- <- <-] & Ht & Hd')]).
  - destruct (N _ _ _ _ _ Et Hz Hd').
  - exists p, q, z, d1, t, d2. auto 10.
Qed.
Print Assumptions C45_delimiters_partial.

(** C50 A terminator needs something to terminate: in every beginning of an
    accepted text without quoting words there are at most as many terminators
    as the words they terminate (twice as many for nu'u). *)
Theorem C50_terminators toks c o k : accepted toks -> ~ quotes toks -> In (c, o, k) terminators ->
  forall x y, toks = x ++ y -> (number_of [c] x <= k * number_of o x)%nat.
Proof. exact (terminated toks c o k). Qed.
Print Assumptions C50_terminators.

Example C50_example : accepted (lexed "le nu mi broda kei cu brode") /\ ~ quotes (lexed "le nu mi broda kei cu brode") /\
  number_of [S_Kei] (lexed "le nu mi broda kei cu brode") = 1%nat /\ In (S_Kei, [S_Nu], 1%nat) terminators /\
  rejected (lexed "le nu mi broda kei kei cu brode") /\ accepted (lexed "nu'i ge mi nu'u gi do nu'u broda").
Proof.
  split; [eexists; vm_compute; reflexivity|]. split; [apply not_quotes; vm_compute; intuition (subst; reflexivity)|].
  split; [vm_compute; reflexivity|]. split; [cbn; tauto|]. split; eexists; vm_compute; reflexivity.
Qed.

(** C51 The parser looks only at the classes of the tokens: spans and flags do
    not matter. *)
Theorem C51_classes_only toks toks' : Forall2 same_class toks toks' ->
  match cst_parse toks, cst_parse toks' with
  | Ret (inl v), Ret (inl w) => same_shape v w
  | Ret (inr x), Ret (inr y) => same_error x y
  | Diverge, Diverge => True
  | _, _ => False
  end.
Proof. exact (cst_parse_like toks toks'). Qed.
Print Assumptions C51_classes_only.

Example C51_example : Forall2 same_class (lexed "mi broda") (lexed "do brode") /\ lexed "mi broda" <> lexed "da  brode".
Proof. vm_compute. split; [repeat constructor|discriminate]. Qed.

(** C52 How texts end: exactly these classes are never last in a text without
    quoting words. *)
Theorem C52_never_last toks t s : accepted (toks ++ [t]) -> ~ quotes (toks ++ [t]) -> selmaho t = s ->
  ordinary s /\ ~ In s never_last.
Proof. exact (last_word toks t s). Qed.
Print Assumptions C52_never_last.

Theorem C52_complete s : ordinary s -> ~ In s never_last ->
  exists toks t, accepted (toks ++ [t]) /\ ~ quotes (toks ++ [t]) /\ selmaho t = s.
Proof. exact (final s). Qed.
Print Assumptions C52_complete.

(** C53 How texts begin. *)
Theorem C53_never_first toks t s : accepted (t :: toks) -> ~ quotes (t :: toks) -> selmaho t = s ->
  ordinary s /\ ~ In s never_first.
Proof. exact (first_word toks t s). Qed.
Print Assumptions C53_never_first.

Theorem C53_complete s : ordinary s -> ~ In s never_first ->
  exists toks t, accepted (t :: toks) /\ ~ quotes (t :: toks) /\ selmaho t = s.
Proof. exact (initial s). Qed.
Print Assumptions C53_complete.

(** The hypotheses of C45_delimiters_partial and C38_lexed_partial are met. *)
Example C45_example : exists items toks root, lex_all Debug (mkstr 0 (lit "zoi gy foo gy broda")) = Ret items /\
  sequence_items items = inl toks /\ quotes_texts toks /\ cst_parse toks = Ret (inl root) /\
  In "ZoiSumti"%string (map node_name (walk (size root) root)).
Proof.
  do 3 eexists. split; [vm_compute; reflexivity|]. split; [vm_compute; reflexivity|]. split; [|split; [vm_compute; reflexivity|]].
  - intros p z q E Hz. destruct p as [|p0 p].
    + cbn in E. injection E as <- <-. do 4 eexists. split; [reflexivity|]. auto.
    + exfalso. cbn in E. injection E as _ E.
      assert (I : In z (p ++ z :: q)) by (apply in_or_app; right; left; reflexivity). rewrite <- E in I. cbn in I.
      repeat (destruct I as [<-|I]; [discriminate Hz|]). exact I.
  - vm_compute. repeat (first [left; reflexivity|right]).
Qed.

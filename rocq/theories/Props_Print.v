(** Props_Print.v -- C71: what main.rs prints is faithful.  Vocabulary: SpecPrint.v
    (and SpecCst.v for [contains] and [tip]). *)
From Verif Require Import Base Span Utf8 Selmaho Classify Lex SpecLex Cst CstRules CstApi CstMain SpecCst SpecPrint.
From Verif Require Import CstMeta CstTotal CstTree CstPrint CstNodes PrintThms Props_Cst.
From Coq Require Import Lia Arith.
Local Open Scope list_scope.

(** There is one thing to be seen of every tree, and only one. *)
Theorem C71_seen collapse v : exists! t, appears collapse v t.
Proof.
  destruct (appears_exists collapse (size v) v (Nat.le_refl _)) as (t & A). exists t. split; [exact A|].
  intros t' A'. exact (appears_unique collapse t v t' A A').
Qed.
Print Assumptions C71_seen.

Lemma main_parsed bm collapse s lines : main_cst bm collapse s = Ret (RTree lines) ->
  exists toks root, parsed bm s toks root /\ print_tree collapse s root = Ret lines.
Proof.
  unfold main_cst, pipeline. destruct (lex_all bm s) as [items| |] eqn:E1; cbn [obind]; try discriminate.
  destruct (sequence_items items) as [toks|e] eqn:E2; cbn [obind]; [|discriminate].
  destruct (cst_parse toks) as [[root|e]| |] eqn:E3; cbn [obind]; try discriminate.
  - destruct (print_tree collapse s root) as [ls| |] eqn:E4; cbn [obind]; try discriminate.
    intros [= <-]. exists toks, root. split; [|exact E4]. exists items. split; [exact E1|]. split; [apply sequence_tokens, E2|exact E3].
  - destruct (location e) as [|t r]; [discriminate|]. destruct (sel_eqb (selmaho t) S_AnyText); [|discriminate].
    destruct (span_slice (tspan t) s); cbn [unwrap obind]; discriminate.
Qed.

(** C71 If two texts, even different ones, are printed with the same lines --
    indentation, names, stars and spans, not looking at the quoted words --
    then what is to be seen of their trees is the same ... *)
Theorem C71_faithful bm bm' collapse s s' lines lines' :
  main_cst bm collapse s = Ret (RTree lines) -> main_cst bm' collapse s' = Ret (RTree lines') ->
  map strip lines = map strip lines' ->
  exists toks root toks' root' t, parsed bm s toks root /\ parsed bm' s' toks' root' /\
    appears collapse root t /\ appears collapse root' t.
Proof.
  intros H H' E. destruct (main_parsed _ _ _ _ H) as (toks & root & P & Q). destruct (main_parsed _ _ _ _ H') as (toks' & root' & P' & Q').
  destruct (C71_seen collapse root) as (t & A & _). destruct (C71_seen collapse root') as (t' & A' & _).
  exists toks, root, toks', root', t. split; [exact P|]. split; [exact P'|]. split; [exact A|].
  rewrite (print_injective collapse s s' root root' lines lines' t t' Q Q' A A' E). exact A'.
Qed.
Print Assumptions C71_faithful.

(** ... the words stand at the same places, and, unless there are zoi quotes,
    whose words are printed without their class, the tokens and so the whole
    trees are the same, collapsed printing or not. *)
Theorem C71_words bm bm' collapse s s' lines lines' toks root toks' root' :
  main_cst bm collapse s = Ret (RTree lines) -> main_cst bm' collapse s' = Ret (RTree lines') ->
  map strip lines = map strip lines' ->
  parsed bm s toks root -> parsed bm' s' toks' root' ->
  map tspan toks = map tspan toks' /\ (~ contains S_Zoi toks -> toks' = toks /\ root' = root).
Proof.
  intros H H' E P P'. destruct (C71_faithful _ _ _ _ _ _ _ H H' E) as (tk & rt & tk' & rt' & t & X & X' & A & A').
  assert (U : forall bm s tk rt tk' rt', parsed bm s tk rt -> parsed bm s tk' rt' -> tk' = tk /\ rt' = rt).
  { clear. intros bm s tk rt tk' rt' (i & I1 & I2 & I3) (j & J1 & J2 & J3). assert (j = i) by congruence. subst j.
    assert (M : forall a b : list token, map IOk a = map IOk b -> a = b).
    { induction a as [|x a IH]; intros [|y b] K; try discriminate; [reflexivity|]. injection K as -> K. f_equal. auto. }
    assert (tk' = tk) by (apply M; congruence). subst tk'. split; [reflexivity|congruence]. }
  destruct (U _ _ _ _ _ _ P X) as [-> ->]. destruct (U _ _ _ _ _ _ P' X') as [-> ->].
  destruct P as (i & I1 & I2 & I3), P' as (j & J1 & J2 & J3). clear U.
  pose proof (appears_heads shows seen_as (fun _ _ K => K) seen_shows collapse t root' toks' A' (root_covers _ _ J3)) as S'.
  split.
  - pose proof (appears_heads shows seen_as (fun _ _ K => K) seen_shows collapse t root toks A (root_covers _ _ I3)) as S.
    exact (heads_spans _ _ _ S S').
  - intros N. pose proof (appears_heads istok token_head) as T.
    specialize (T (fun v t K => or_introl K) (fun v t K => ltac:(rewrite K; reflexivity)) collapse t root toks A (root_istok _ _ I3 N)).
    assert (toks' = toks) by exact (heads_tokens _ _ _ T S'). split; [assumption|]. subst toks'. congruence.
Qed.
Print Assumptions C71_words.

(** A case: "mi broda" printed collapsed, and what is seen of it. *)
Example C71_example : exists toks root lines, parsed Debug (mkstr 0 (lit "mi broda")) toks root /\
  main_cst Debug true (mkstr 0 (lit "mi broda")) = Ret (RTree lines) /\ ~ contains S_Zoi toks /\
  appears true root (VT "Sentence" false (Some (mkspan 0 8))
    [VT "KOhA" false (Some (mkspan 0 2)) []; VT "gismu" false (Some (mkspan 3 8)) []]).
Proof.
  pose proof (proj1 C40_example) as H. destruct (main_parsed _ _ _ _ H) as (toks & root & P & Q).
  exists toks, root. eexists. split; [exact P|]. split; [exact H|]. split.
  - destruct P as (i & I1 & I2 & I3). assert (K : toks = lexed "mi broda").
    { unfold lexed. rewrite I1, I2. clear. induction toks as [|t toks IH]; [reflexivity|]. change (tokens (map IOk (t :: toks))) with (t :: tokens (map IOk toks)). rewrite <- IH. reflexivity. }
    rewrite K. intros (t & Ht & E). vm_compute in Ht. destruct Ht as [<-|[<-|[]]]; discriminate E.
  - destruct (C71_seen true root) as (t & A & _). unfold print_tree in Q.
    destruct (print_node (tree_size root) true (mkstr 0 (lit "mi broda")) 0 root) as [r|] eqn:E; [|discriminate]. subst r.
    pose proof (print_flat _ _ _ _ _ _ _ E A) as F. cbn [map] in F.
    rewrite (flat_inj 0 t (VT "Sentence" false (Some (mkspan 0 8))
      [VT "KOhA" false (Some (mkspan 0 2)) []; VT "gismu" false (Some (mkspan 3 8)) []]) (eq_sym F)) in A. exact A.
Qed.

(** Why zoi quotes are left out: another word in place of the second delimiter,
    of another class, is printed alike (the trees are of token lists no text
    gives, but [cst_parse] is public). *)
Example C71_zoi_example : exists d d' root root',
  let z := mktok false S_Zoi (mkspan 0 3) in let a := mktok false S_AnyText (mkspan 4 5) in
  selmaho d <> selmaho d' /\ cst_parse [z; a; a; d] = Ret (inl root) /\ cst_parse [z; a; a; d'] = Ret (inl root') /\
  exists t, appears true root t /\ appears true root' t.
Proof.
  exists (mktok false S_ZoiDelimiter (mkspan 6 7)), (mktok false S_Gismu (mkspan 6 7)). do 2 eexists. cbv zeta.
  split; [discriminate|]. split; [vm_compute; reflexivity|]. split; [vm_compute; reflexivity|].
  destruct (C71_seen true
    (match cst_parse [mktok false S_Zoi (mkspan 0 3); mktok false S_AnyText (mkspan 4 5); mktok false S_AnyText (mkspan 4 5); mktok false S_Gismu (mkspan 6 7)] with Ret (inl r) => r | _ => VPass [] end)) as (t & A & _).
  vm_compute in A. exists t. split; exact A.
Qed.

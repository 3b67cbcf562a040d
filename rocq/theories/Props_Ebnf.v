(** Props_Ebnf.v -- C68: whatever the parser accepts is grammatical, and every node is the construct it says it is.
    Vocabulary: SpecCst.v, SpecParts.v, SpecEbnf.v. *)
From Verif Require Import Base Span Selmaho Classify Lex SpecText SpecLex Cst CstRules CstApi SpecCst SpecParts SpecEbnf CstMeta CstTotal CstTree CstBalance.
From Verif Require Import Props_Lex Props_Cst CstParts CstEbnf.
From Coq Require Import Lia Arith.
Import Datatypes.

Lemma parse_good toks root : cst_parse toks = Ret (inl root) -> good root toks.
Proof.
  unfold cst_parse. generalize (cst_fuel toks). intros k H. assert (E : grun crule k al_Root toks = COk [] root).
  { revert H. generalize (grun crule k al_Root toks). intros [|[|t r] v|e|e] H; try discriminate. injection H as ->. reflexivity. }
  destruct (run_whole _ _ _ _ _ E eq_refl eq_refl) as (m & Em & G & _). rewrite app_nil_r in Em. rewrite Em. exact G.
Qed.
Lemma root_kind toks root : cst_parse toks = Ret (inl root) -> of_kind root "Text".
Proof.
  unfold cst_parse. generalize (cst_fuel toks). intros k H. assert (E : grun crule k al_Root toks = COk [] root).
  { revert H. generalize (grun crule k al_Root toks). intros [|[|t r] v|e|e] H; try discriminate. injection H as ->. reflexivity. }
  destruct (head_ok _ 30 al_Root _ _ _ ["Text"%string] E eq_refl) as (nm & fs & -> & Hnm). destruct Hnm as [<-|[]]. left. reflexivity.
Qed.

(** Every node of the tree is the construct that its kind says: the tokens that it shows are an instance of it. *)
Theorem C68_nodes toks root p u m q k r : cst_parse toks = Ret (inl root) -> part_of root p u m q -> p ++ m ++ q = toks ->
  of_kind u k -> In (k, r) constructs -> generates r m.
Proof. intros H HP <- Hk Hin. eapply good_kind; [|exact Hk|exact Hin]. eapply part_good; [exact HP|]. apply parse_good, H. Qed.
Print Assumptions C68_nodes.

(** Every accepted text is grammatical. *)
Theorem C68_grammatical toks : accepted toks -> generates text toks.
Proof.
  intros (root & H). assert (S : stands_for root toks) by (apply covers_stands, good_covers, parse_good, H).
  eapply (C68_nodes toks root [] root toks [] "Text"); [exact H|constructor; exact S|apply app_nil_r|eapply root_kind, H|left; reflexivity].
Qed.
Print Assumptions C68_grammatical.

(** Hence a text that the grammar does not generate is rejected. *)
Theorem C68_ungrammatical toks : ~ generates text toks -> rejected toks.
Proof.
  intros H. destruct (C35_total toks) as ([root|e] & E); [|exists e; exact E]. destruct H. apply C68_grammatical. exists root. exact E.
Qed.
Print Assumptions C68_ungrammatical.

(** * Examples *)
Example C68_accepted : Forall (fun s => accepted (lexed s)) ["mi klama le zarci"; "le nu mi broda kei cu brode"; "coi ro do"; "li pa su'i re du li ci"; "zo cu cu valsi"; "mi pu ge klama gi citka"]%string.
Proof. repeat constructor; eexists; vm_compute; reflexivity. Qed.
(** mi cu cu klama; le ku klama; klama co; noi klama; zei klama; klama vau vau; mi .e; ge klama klama; nu kei *)
Definition ungrammatical : list (list Selmaho) :=
 [[S_Koha; S_Cu; S_Cu; S_Gismu]; [S_Le; S_Ku; S_Gismu]; [S_Gismu; S_Co]; [S_Noi; S_Gismu]; [S_Zei; S_Gismu]; [S_Gismu; S_Vau; S_Vau]; [S_Koha; S_A];
  [S_Ga; S_Gismu; S_Gismu]; [S_Nu; S_Kei]].
Lemma ungrammatical_refuted : forallb (refuted text) ungrammatical = true.
Proof. vm_cast_no_check (eq_refl true). Qed.
Example C68_example_rejected toks : In (map selmaho toks) ungrammatical -> ~ generates text toks /\ rejected toks.
Proof.
  intros H. pose proof ungrammatical_refuted as R. rewrite forallb_forall in R. assert (N : ~ generates text toks) by (eapply refuted_ok; [apply R, H|reflexivity]).
  split; [exact N|apply C68_ungrammatical, N].
Qed.

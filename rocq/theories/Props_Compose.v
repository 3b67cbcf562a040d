(** Props_Compose.v -- C66: texts are put together from sentences and paragraphs.
    Vocabulary: SpecCst.v and SpecFragment.v. *)
From Verif Require Import Base Span Selmaho Lex SpecText SpecLex Cst CstRules CstApi SpecCst SpecFragment CstMeta.
From Verif Require Import CstThms Props_Cst CstSimp CstIndic CstTail CstSame Props_Fragment CstPara.
From Coq Require Import Lia Arith.

(** * C66 Sentences and paragraphs *)

Lemma plain_over toks : plain_words toks <-> Y_over toks.
Proof.
  unfold plain_words, Y_over. rewrite Forall_forall. split; intros H t Ht; specialize (H t Ht).
  - apply Bool.negb_true_iff, mem_notin. exact H.
  - apply Bool.negb_true_iff in H. intros E. apply mem_notin in H. exact (H E).
Qed.

(** A text cut at a ni'o is accepted exactly when the two parts are texts. *)
Theorem C66_paragraph a n b : plain_words a -> plain_words b -> closes a -> selmaho n = S_Niho ->
  (accepted (a ++ n :: b) <-> accepted a /\ accepted b).
Proof. intros Ha Hb Hc En. apply cut_niho; auto; apply plain_over; assumption. Qed.
Print Assumptions C66_paragraph.

(** A text cut at an .i is, if the second part is not attached to the first. *)
Theorem C66_sentence a n b : plain_words a -> plain_words b -> closes a -> selmaho n = S_I -> separate b ->
  (accepted (a ++ n :: b) <-> accepted a /\ accepted b).
Proof.
  intros Ha Hb Hc En Hs. apply plain_over in Ha, Hb. apply cut_loose; auto. right. split; [exact En|]. apply separate_loose; assumption.
Qed.
Print Assumptions C66_sentence.

(** So a text of any number of sentences and paragraphs is accepted exactly when each of them is. *)
Theorem C66_text a l : plain_words a -> closes a ->
  (forall n b, In (n, b) l -> plain_words b /\ closes b /\ (selmaho n = S_Niho \/ (selmaho n = S_I /\ separate b))) ->
  (accepted (joined a l) <-> accepted a /\ forall n b, In (n, b) l -> accepted b).
Proof.
  intros Ha Hc Hl. apply plain_over in Ha. apply cut_list; [exact Hc|exact Ha|]. intros n b Hi. destruct (Hl n b Hi) as (H1 & H2 & H3). apply plain_over in H1.
  split; [exact H2|]. split; [exact H1|]. destruct H3 as [H3|[H3 H4]]; [left; exact H3|right]. split; [exact H3|apply separate_loose; assumption].
Qed.
Print Assumptions C66_text.

(** With attitudinals, hesitations and emphasis in it, too (C62). *)
Theorem C66_spoken a n b : (forall t, In t (a ++ b) -> ~ In (selmaho t) ([S_Faho; S_Fuhe] ++ quoting)) -> emphasises a -> emphasises b ->
  closes (without coloring a) -> (selmaho n = S_Niho \/ (selmaho n = S_I /\ separate (without coloring b))) ->
  (accepted (a ++ n :: b) <-> accepted a /\ accepted b).
Proof.
  intros Hw Ea Eb Hc Hn.
  assert (Hn1 : ~ In (selmaho n) ([S_Faho; S_Fuhe] ++ coloring ++ quoting)).
  { destruct Hn as [E|[E _]]; rewrite E; vm_compute; intros H; repeat destruct H as [H|H]; discriminate || exact H. }
  assert (P : forall c, (forall t, In t c -> In t (a ++ b)) -> plain_words (without coloring c)).
  { intros c Hi t Ht. unfold without in Ht. apply filter_In in Ht as [Ht Hf]. intros E. apply in_app_or in E as [E|E]; [apply (Hw t (Hi t Ht)), in_or_app; auto|].
    apply in_app_or in E as [E|E]; [|apply (Hw t (Hi t Ht)), in_or_app; auto]. apply Bool.negb_true_iff in Hf. enough (existsb (sel_eqb (selmaho t)) coloring = true) by congruence.
    apply existsb_exists. exists (selmaho t). split; [exact E|apply sel_eqb_refl]. }
  assert (Q : forall c, (forall t, In t c -> In t (a ++ b) \/ t = n) -> ~ quotes c /\ ~ contains S_Fuhe c).
  { intros c Hi. split.
    - intros (s & Hs & t & Ht & <-). destruct (Hi t Ht) as [H|H].
      + apply (Hw t H). apply in_or_app. auto.
      + rewrite H in Hs. apply Hn1. apply in_or_app. right. apply in_or_app. auto.
    - intros (t & Ht & E). destruct (Hi t Ht) as [H|H].
      + apply (Hw t H). apply in_or_app. left. rewrite E. cbn. auto.
      + rewrite H in E. apply Hn1. apply in_or_app. left. rewrite E. cbn. auto. }
  assert (Eab : emphasises (a ++ n :: b)).
  { apply emphasises_ok in Ea, Eb. apply ok_emphasises. clear -Ea Eb Hn1. induction a as [|t a IH].
    - cbn [app bahe_ok]. rewrite Eb. destruct (is_bahe n) eqn:E; [|reflexivity]. unfold is_bahe in E. apply sel_eqb_eq in E. exfalso. apply Hn1. rewrite E. cbn. auto.
    - cbn [app bahe_ok] in *. apply Bool.andb_true_iff in Ea as [E1 E2]. rewrite (IH E2), Bool.andb_true_r. destruct (is_bahe t); [|reflexivity]. destruct a; [discriminate|exact E1]. }
  destruct (Q a) as [Qa Fa]; [intros t Ht; left; apply in_or_app; auto|]. destruct (Q b) as [Qb Fb]; [intros t Ht; left; apply in_or_app; auto|].
  destruct (Q (a ++ n :: b)) as [Qab Fab]; [intros t Ht; apply in_app_or in Ht as [Ht|[Ht|Ht]]; [left; apply in_or_app; auto|right; auto|left; apply in_or_app; auto]|].
  rewrite (C62_transparent _ Qa Fa Ea), (C62_transparent _ Qb Fb Eb), (C62_transparent _ Qab Fab Eab).
  assert (E : without coloring (a ++ n :: b) = without coloring a ++ n :: without coloring b).
  { unfold without. rewrite filter_app. cbn [filter]. destruct (existsb (sel_eqb (selmaho n)) coloring) eqn:E; [|reflexivity].
    apply existsb_exists in E as (s & Hs & E). apply sel_eqb_eq in E as <-. exfalso. apply Hn1. apply in_or_app. right. apply in_or_app. auto. }
  rewrite E. destruct Hn as [Hn|[Hn Hs]]; [apply C66_paragraph|apply C66_sentence]; auto; apply P; intros t Ht; apply in_or_app; auto.
Qed.
Print Assumptions C66_spoken.

(** Decision procedures for the hypotheses, for the examples. *)
Lemma has_plain toks : has ([S_Faho; S_Fuhe] ++ coloring ++ quoting) toks = false -> plain_words toks.
Proof.
  intros H t Ht E. enough (has ([S_Faho; S_Fuhe] ++ coloring ++ quoting) toks = true) by congruence. apply existsb_exists. exists t. split; [exact Ht|].
  apply existsb_exists. exists (selmaho t). split; [exact E|apply sel_eqb_refl].
Qed.
Fixpoint closes_b (toks : list token) : bool :=
  forallb (fun p => Nat.leb (number_of [fst p] toks) (number_of [snd p] toks)) groups && match toks with [] => true | _ :: r => closes_b r end.
Lemma closes_true toks : closes_b toks = true -> closes toks.
Proof.
  intros H o c m rest Hp ->. assert (H' : closes_b rest = true).
  { induction m as [|t m IH]; [exact H|]. apply IH. cbn [app closes_b] in H. apply Bool.andb_true_iff in H as [_ H]. exact H. }
  assert (F : forallb (fun p => Nat.leb (number_of [fst p] rest) (number_of [snd p] rest)) groups = true).
  { destruct rest; cbn [closes_b] in H'; apply Bool.andb_true_iff in H' as [H' _]; exact H'. }
  rewrite forallb_forall in F. specialize (F _ Hp). apply Nat.leb_le in F. exact F.
Qed.
Definition attaches_b (toks : list token) : bool := bef attach_first toks && has attach_with toks.
Lemma attaches_no toks : attaches_b toks = false -> ~ attaches toks.
Proof.
  intros H [H1 (s & Hs & Hc)]. apply bef_begins in H1. unfold attaches_b in H. rewrite H1 in H. exact (has_not _ _ H s Hs Hc).
Qed.
Fixpoint joint_b (toks : list token) : bool :=
  match toks with [] => false | t :: r => (sel_eqb (selmaho t) S_I && attaches_b r) || joint_b r end.
Lemma separate_ok toks : negb (attaches_b toks) && (negb (bef late_first toks) || negb (joint_b toks)) = true -> separate toks.
Proof.
  intros H. apply Bool.andb_true_iff in H as [H1 H2]. apply Bool.negb_true_iff in H1. split; [apply attaches_no, H1|].
  intros Hb m i rest E Ei. apply bef_begins in Hb. rewrite Hb in H2. cbn in H2. apply Bool.negb_true_iff in H2. apply attaches_no. subst toks.
  clear -H2 Ei. induction m as [|t m IH]; cbn [app joint_b] in H2; apply Bool.orb_false_iff in H2 as [A B]; [|apply IH, B]. rewrite Ei, sel_eqb_refl in A. exact A.
Qed.
Ltac clear_ :=
  match goal with
  | |- plain_words _ => apply has_plain; vm_compute; reflexivity
  | |- closes _ => apply closes_true; vm_compute; reflexivity
  | |- separate _ => apply separate_ok; vm_compute; reflexivity
  | _ => evident
  end.

Definition x_mi_cusku_lu_coi_niho_do_klama_lihu : list token := Eval vm_compute in lexed "mi cusku lu coi ni'o do klama li'u".
Definition x_na_ku_broda_i_je_brode : list token := Eval vm_compute in lexed "na ku broda .i je brode".
Definition x_i : list token := Eval vm_compute in lexed ".i".
Definition x_niho : list token := Eval vm_compute in lexed "ni'o".
Definition x_coi_djan : list token := Eval vm_compute in lexed "coi djan".
(** Example: [mi cusku lu coi ni'o do klama li'u ni'o na ku broda .i je brode .i coi djan], three pieces. *)
Example C66_example : let a := x_mi_cusku_lu_coi_niho_do_klama_lihu in let b := x_na_ku_broda_i_je_brode in let c := x_coi_djan in
  plain_words a /\ closes a /\ plain_words b /\ closes b /\ plain_words c /\ closes c /\ separate c /\ accepted a /\ accepted b /\ accepted c /\
  (forall n, In n x_niho -> selmaho n = S_Niho) /\ (forall n, In n x_i -> selmaho n = S_I) /\
  accepted (a ++ x_niho ++ b ++ x_i ++ c).
Proof. cbv zeta. repeat match goal with |- _ /\ _ => split end; try clear_; intros n [<-|[]]; reflexivity. Qed.

Definition x_broda : list token := Eval vm_compute in lexed "broda".
Definition x_lu_broda : list token := Eval vm_compute in lexed "lu broda".
Definition x_brode_lihu : list token := Eval vm_compute in lexed "brode li'u".
Definition x_bo_brode : list token := Eval vm_compute in lexed "bo brode".
Definition x_je_brode : list token := Eval vm_compute in lexed "je brode".
Definition x_pu_bo_brode : list token := Eval vm_compute in lexed "pu bo brode".
Definition x_i_bo_brode : list token := Eval vm_compute in lexed ".i bo brode".
Definition x_broda_faho : list token := Eval vm_compute in lexed "broda fa'o".
(** The hypotheses are needed: an open quotation, quoting words, fa'o, and the ways of attaching a sentence. *)
Example C66_needed :
  (accepted (x_lu_broda ++ x_niho ++ x_brode_lihu) /\ rejected x_brode_lihu) /\
  (accepted (x_lu_broda ++ x_i ++ x_brode_lihu) /\ rejected x_brode_lihu) /\
  (accepted (x_zo ++ x_niho ++ []) /\ rejected x_zo) /\
  (accepted x_broda_faho /\ accepted x_broda /\ rejected (x_broda_faho ++ x_niho ++ x_broda)) /\
  (accepted (x_broda ++ x_i ++ x_bo_brode) /\ rejected x_bo_brode) /\
  (accepted (x_broda ++ x_i ++ x_je_brode) /\ rejected x_je_brode) /\
  (accepted (x_broda ++ x_i ++ x_pu_bo_brode) /\ rejected x_pu_bo_brode) /\
  (accepted (x_broda ++ x_i ++ x_i_bo_brode) /\ rejected x_i_bo_brode).
Proof. repeat match goal with |- _ /\ _ => split end; evident. Qed.

(** Props_Fragment.v -- the properties C62 and on: which texts the parser accepts.
    Vocabulary: SpecCst.v and SpecFragment.v. *)
From Verif Require Import Base Span Selmaho Lex SpecText SpecLex Cst CstRules CstApi SpecCst SpecFragment CstMeta.
From Verif Require Import Props_Cst CstSimp CstIndic CstTail CstSame.
From Coq Require Import Lia Arith.

(** * C62 Attitudinals and emphasis do not matter *)

Lemma emphasises_ok toks : emphasises toks -> bahe_ok toks = true.
Proof.
  induction toks as [|t r IH]; intros H; [reflexivity|]. cbn [bahe_ok]. rewrite IH.
  - rewrite Bool.andb_true_r. destruct (is_bahe t) eqn:E; [|reflexivity]. unfold is_bahe in E. apply sel_eqb_eq in E.
    destruct (H [] t r eq_refl E) as (u & r' & -> & N). apply Bool.negb_true_iff. destruct (sel_eqb (selmaho u) S_Lu) eqn:E'; [apply sel_eqb_eq in E'; contradiction|reflexivity].
  - intros m b rest -> Eb. apply (H (t :: m) b rest eq_refl Eb).
Qed.
Lemma without_strip toks : without coloring toks = strip toks.
Proof.
  unfold without, strip. apply filter_ext. intros t. unfold CstIndic.plain, is_ind, is_bahe, coloring. cbn [existsb].
  rewrite Bool.orb_comm. reflexivity.
Qed.

(** A text without quoting words and fu'e is accepted exactly when it is without
    its attitudinals, hesitations and emphasis markers. *)
Theorem C62_transparent toks : ~ quotes toks -> ~ contains S_Fuhe toks -> emphasises toks ->
  (accepted toks <-> accepted (without coloring toks)).
Proof. intros Hq Hf He. rewrite without_strip. exact (transparent toks Hq Hf (emphasises_ok toks He)). Qed.
Print Assumptions C62_transparent.

(** So they can be put in, taken out and exchanged at will: texts that differ in
    nothing else are both accepted or both rejected. *)
Theorem C62_exchange a b : ~ quotes a -> ~ contains S_Fuhe a -> emphasises a -> ~ quotes b -> ~ contains S_Fuhe b -> emphasises b ->
  without coloring a = without coloring b -> (accepted a <-> accepted b).
Proof. intros. rewrite (C62_transparent a), (C62_transparent b); auto. rewrite H5. reflexivity. Qed.
Print Assumptions C62_exchange.

(** Decision procedures for the hypotheses, for the examples. *)
Definition has (l : list Selmaho) (toks : list token) : bool := existsb (fun t => existsb (sel_eqb (selmaho t)) l) toks.
Lemma has_not l toks : has l toks = false -> forall s, In s l -> ~ contains s toks.
Proof.
  intros H s Hs (t & Ht & E). enough (has l toks = true) by congruence.
  apply existsb_exists. exists t. split; [exact Ht|]. apply existsb_exists. exists s. split; [exact Hs|]. rewrite E. apply sel_eqb_refl.
Qed.
Lemma has_quotes toks : has quoting toks = false -> ~ quotes toks.
Proof. intros H (s & Hs & Hc). exact (has_not _ _ H s Hs Hc). Qed.
Lemma has_one s toks : has [s] toks = false -> ~ contains s toks.
Proof. intros H. apply (has_not _ _ H). left. reflexivity. Qed.
Lemma ok_emphasises toks : bahe_ok toks = true -> emphasises toks.
Proof.
  intros Hb m b rest -> Eb. apply bahe_ok_suffix in Hb. cbn [bahe_ok] in Hb. unfold is_bahe in Hb. rewrite Eb in Hb. cbn in Hb.
  destruct rest as [|u rest']; [discriminate|]. apply Bool.andb_true_iff in Hb as [Hb _]. exists u, rest'. split; [reflexivity|].
  intros E. rewrite E in Hb. discriminate.
Qed.
Lemma ends_with_last s toks : sel_eqb (selmaho (last toks (mktok false S_AnyText (mkspan 0 0)))) s = false -> ~ ends_with s toks.
Proof. intros H (m & t & -> & E). rewrite last_last, E, sel_eqb_refl in H. discriminate. Qed.
Ltac evident :=
  match goal with
  | |- ~ quotes _ => apply has_quotes; vm_compute; reflexivity
  | |- ~ contains _ _ => apply has_one; vm_compute; reflexivity
  | |- emphasises _ => apply ok_emphasises; vm_compute; reflexivity
  | |- ~ ends_with _ _ => apply ends_with_last; vm_compute; reflexivity
  | |- accepted _ => eexists; vm_compute; reflexivity
  | |- rejected _ => eexists; vm_compute; reflexivity
  end.

(** The tokens of the example texts. *)
Definition x_ui_mi_bahe_pu_broda_y_do_nai_cai : list token := Eval vm_compute in lexed "ui mi ba'e pu broda .y do nai cai".
Definition x_mi_pu_broda_do : list token := Eval vm_compute in lexed "mi pu broda do".
Definition x_zo_ui : list token := Eval vm_compute in lexed "zo ui".
Definition x_fuhe_ui_mi : list token := Eval vm_compute in lexed "fu'e ui mi".
Definition x_bahe_lu_do_lihu : list token := Eval vm_compute in lexed "ba'e lu do li'u".
Definition x_mi_bahe : list token := Eval vm_compute in lexed "mi ba'e".
Definition x_mi_djica_le_nu_do_klama : list token := Eval vm_compute in lexed "mi djica le nu do klama".
Definition x_vau_kei_vau : list token := Eval vm_compute in lexed "vau kei vau".
Definition x_faho : list token := Eval vm_compute in lexed "fa'o".
Definition x_mi_na_ku : list token := Eval vm_compute in lexed "mi na ku".
Definition x_mi_na : list token := Eval vm_compute in lexed "mi na".
Definition x_nuha_ke_suhi_kehe : list token := Eval vm_compute in lexed "nu'a ke su'i ke'e".
Definition x_nuha_ke_suhi : list token := Eval vm_compute in lexed "nu'a ke su'i".
Definition x_tei_by_foi : list token := Eval vm_compute in lexed "tei by foi".
Definition x_tei_by : list token := Eval vm_compute in lexed "tei by".
Definition x_broda_bahe_vau : list token := Eval vm_compute in lexed "broda ba'e vau".
Definition x_broda_bahe : list token := Eval vm_compute in lexed "broda ba'e".
Definition x_zo_vau : list token := Eval vm_compute in lexed "zo vau".
Definition x_zo : list token := Eval vm_compute in lexed "zo".

Example C62_example : let a := x_ui_mi_bahe_pu_broda_y_do_nai_cai in
  ~ quotes a /\ ~ contains S_Fuhe a /\ emphasises a /\ accepted a /\
  map selmaho (without coloring a) = map selmaho (x_mi_pu_broda_do) /\ accepted (x_mi_pu_broda_do).
Proof. cbv zeta. split; [evident|]. split; [evident|]. split; [evident|]. split; [evident|]. split; [vm_compute; reflexivity|evident]. Qed.

(** None of the hypotheses can be left out: [zo ui], [fu'e ui mi], [ba'e lu do li'u], and a final [ba'e]. *)
Example C62_needed :
  (let a := x_zo_ui in ~ contains S_Fuhe a /\ emphasises a /\ accepted a /\ rejected (without coloring a)) /\
  (let a := x_fuhe_ui_mi in ~ quotes a /\ emphasises a /\ accepted a /\ rejected (without coloring a)) /\
  (let a := x_bahe_lu_do_lihu in ~ quotes a /\ ~ contains S_Fuhe a /\ rejected a /\ accepted (without coloring a)) /\
  (let a := x_mi_bahe in ~ quotes a /\ ~ contains S_Fuhe a /\ rejected a /\ accepted (without coloring a)).
Proof. cbv zeta. repeat match goal with |- _ /\ _ => split end; evident. Qed.

(** * C63 The end of a text *)

Lemma not_ends_nb toks : ~ ends_with S_Bahe toks -> nb toks.
Proof. intros H m u -> E. apply H. exists m, u. auto. Qed.

(** Terminators can be left out at the end of a text. *)
Theorem C63_final_terminators toks terms : ~ quotes toks -> ~ ends_with S_Bahe toks ->
  (forall t, In t terms -> In (selmaho t) final_elidable) -> accepted (toks ++ terms) -> accepted toks.
Proof. intros Hq Hn Ht. apply drop_many; auto. apply not_ends_nb, Hn. Qed.
Print Assumptions C63_final_terminators.

(** fa'o at the end changes nothing. *)
Theorem C63_faho toks t : selmaho t = S_Faho -> ~ quotes toks -> ~ contains S_Faho toks -> ~ ends_with S_Bahe toks ->
  (accepted (toks ++ [t]) <-> accepted toks).
Proof.
  intros Et Hq Hf Hn. apply not_ends_nb in Hn. split; intros H.
  - apply drop_last with t; auto. rewrite Et. left. reflexivity.
  - apply add_faho; auto.
Qed.
Print Assumptions C63_faho.

Example C63_example : let a := x_mi_djica_le_nu_do_klama in let ts := x_vau_kei_vau in
  ~ quotes a /\ ~ ends_with S_Bahe a /\ ~ contains S_Faho a /\ (forall t, In t ts -> In (selmaho t) final_elidable) /\
  accepted (a ++ ts) /\ accepted (a ++ x_faho).
Proof.
  cbv zeta. split; [evident|]. split; [evident|]. split; [evident|]. split; [|split; evident].
  assert (H : forallb (fun t => existsb (sel_eqb (selmaho t)) final_elidable) (x_vau_kei_vau) = true) by (vm_compute; reflexivity).
  rewrite forallb_forall in H. intros t Ht. apply H, existsb_exists in Ht as (s & Hs & E). apply sel_eqb_eq in E as ->. exact Hs.
Qed.

(** The terminators ku, ke'e and foi are not always elidable, not even at the end;
    a final ba'e and quoted words are exceptions too. *)
Example C63_refuted :
  (accepted (x_mi_na_ku) /\ rejected (x_mi_na)) /\
  (accepted (x_nuha_ke_suhi_kehe) /\ rejected (x_nuha_ke_suhi)) /\
  (accepted (x_tei_by_foi) /\ rejected (x_tei_by)) /\
  (accepted (x_broda_bahe_vau) /\ rejected (x_broda_bahe)) /\
  (accepted (x_zo_vau) /\ rejected (x_zo)).
Proof. repeat match goal with |- _ /\ _ => split end; evident. Qed.

(** * C64 Gismu, lujvo and fu'ivla are interchangeable *)

(** ... in every text, quoting words included. *)
Theorem C64_brivla a b : same_but_brivla a b -> (accepted a <-> accepted b).
Proof.
  intros H. split; apply same_kind; [exact H|].
  induction H as [|t u a b E _ IH]; constructor; [|exact IH]. apply alike_sym, E.
Qed.
Print Assumptions C64_brivla.

Definition x_le_broda_be_do_cu_brode_co_brodi : list token := Eval vm_compute in lexed "le broda be do cu brode co brodi".
Definition x_le_seltirna_be_do_cu_spageti_co_selbroda : list token := Eval vm_compute in lexed "le seltirna be do cu spageti co selbroda".
(** Example; and cmevla and go'i are not brivla. *)
Example C64_example : same_but_brivla x_le_broda_be_do_cu_brode_co_brodi x_le_seltirna_be_do_cu_spageti_co_selbroda /\
  map selmaho x_le_seltirna_be_do_cu_spageti_co_selbroda = [S_Le; S_Lujvo; S_Be; S_Koha; S_Cu; S_Fuhivla; S_Co; S_Lujvo] /\
  accepted x_le_broda_be_do_cu_brode_co_brodi.
Proof. split; [|split; [vm_compute; reflexivity|evident]]. unfold same_but_brivla. repeat (constructor; [cbn; tauto|]). constructor. Qed.
Definition x_gohi_raho : list token := Eval vm_compute in lexed "go'i ra'o".
Definition x_broda_raho : list token := Eval vm_compute in lexed "broda ra'o".
Example C64_goha : accepted x_gohi_raho /\ rejected x_broda_raho.
Proof. split; evident. Qed.

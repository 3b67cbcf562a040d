(** Props_Grammar.v -- C65: the parser accepts everyday Lojban, as described by a
    context-free grammar.  Vocabulary: SpecGen.v, SpecGrammar.v, SpecFragment.v. *)
From Verif Require Import Base Span Selmaho Lex SpecText SpecLex Cst CstRules CstApi SpecCst SpecFragment SpecGen SpecGrammar CstMeta.
From Verif Require Import Props_Cst CstSimp CstIndic CstTail CstSame Props_Fragment CstGen CstGrammar.
From Coq Require Import Lia Arith.

(** * C65 A grammar of accepted texts *)

(** Every text the grammar generates is accepted. *)
Theorem C65_generated toks : gens productions [Part Text] toks -> accepted toks.
Proof. exact (generated toks). Qed.
Print Assumptions C65_generated.

(** So is every text that becomes one when attitudinals, hesitations and emphasis are taken out and
    terminators are added at the end. *)
Theorem C65_spoken toks terms : ~ quotes toks -> ~ contains S_Fuhe toks -> emphasises toks ->
  (forall t, In t terms -> In (selmaho t) final_elidable) ->
  gens productions [Part Text] (without coloring toks ++ terms) -> accepted toks.
Proof.
  intros Hq Hf He Ht G. apply (C62_transparent toks Hq Hf He).
  assert (Hw : forall t, In t (without coloring toks) -> In t toks /\ selmaho t <> S_Bahe).
  { intros t H. unfold without in H. apply filter_In in H as [H1 H2]. split; [exact H1|]. intros E. rewrite E in H2. discriminate. }
  apply C63_final_terminators with terms; [| |exact Ht|apply C65_generated, G].
  - intros (s & Hs & t & Hc & E). apply Hq. exists s. split; [exact Hs|]. exists t. split; [apply Hw, Hc|exact E].
  - intros (m & t & E & Eb). destruct (Hw t) as [_ N]; [rewrite E; apply in_or_app; right; left; reflexivity|]. exact (N Eb).
Qed.
Print Assumptions C65_spoken.

(** Leftmost derivations, for the examples: [derive choices w] replaces the first construct of [w], again and
    again, by the production of the given number. *)
Fixpoint derive (n : nat) (choices : list nat) (w : list (sym part)) {struct n} : option (list Selmaho) :=
  match n, w, choices with
  | _, [], [] => Some []
  | S n, Word s :: w, _ => match derive n choices w with Some l => Some (s :: l) | None => None end
  | S n, Part a :: w, c :: choices => match nth_error (productions a) c with Some p => derive n choices (p ++ w) | None => None end
  | _, _, _ => None
  end.
Lemma gens_split w1 : forall w2 m, gens productions (w1 ++ w2) m -> exists m1 m2, m = m1 ++ m2 /\ gens productions w1 m1 /\ gens productions w2 m2.
Proof.
  induction w1 as [|[s|a] w1 IH]; intros w2 m H; cbn [app] in H.
  - exists [], m. repeat split; [constructor|exact H].
  - inversion H as [|s0 t w m' E G|]; subst. destruct (IH _ _ G) as (m1 & m2 & -> & A & B). exists (t :: m1), m2. repeat split; [constructor; auto|exact B].
  - inversion H as [| |a0 p w m1' m2' Hp G1 G2]; subst. destruct (IH _ _ G2) as (m1 & m2 & -> & A & B). exists (m1' ++ m1), m2. repeat split; [rewrite app_assoc; reflexivity|econstructor; eauto|exact B].
Qed.
Lemma derive_gens n : forall choices w l, derive n choices w = Some l -> forall toks, map selmaho toks = l -> gens productions w toks.
Proof.
  induction n as [|n IH]; intros choices w l H toks E; cbn [derive] in H.
  - destruct w; [|discriminate]. destruct choices; [|discriminate]. injection H as <-. destruct toks; [constructor|discriminate].
  - destruct w as [|[s|a] w].
    + destruct choices; [|discriminate]. injection H as <-. destruct toks; [constructor|discriminate].
    + destruct (derive n choices w) as [l'|] eqn:D; [|discriminate]. injection H as <-. destruct toks as [|t toks]; [discriminate|]. cbn in E. injection E as E1 E2.
      constructor; [exact E1|]. eapply IH; eassumption.
    + destruct choices as [|c choices]; [discriminate|]. destruct (nth_error (productions a) c) as [p|] eqn:N; [|discriminate].
      pose proof (IH _ _ _ H toks E) as G. apply gens_split in G as (m1 & m2 & -> & G1 & G2). econstructor; [eapply nth_error_In, N|exact G1|exact G2].
Qed.

(** le nanmu noi do pu klama la djan ku'o cu djica le nu mi na prami la .alis .e do .i je pu ku mi go'i ra'o *)
Definition x65_1 : list token := Eval vm_compute in lexed "le nanmu noi do pu klama la djan ku'o cu djica le nu mi na prami la .alis .e do .i je pu ku mi go'i ra'o".
Example C65_example_1 : gens productions [Part Text] x65_1.
Proof. eapply (derive_gens 999 [0;0;1;6;0;0;0;1;0;0;0;1;0;0;0;0;0;0;0;0;0;0;0;0;1;2;0;0;0;0;0;0;0;0;0;0;0;0;0;0;0;0;0;1;0;0;0;0;0;1;0;0;0;0;0;0;0;0;1;0;0;0;0;0;0;0;0;0;0;0;0;1;0;0;0;0;0;0;0;0;0;0;0;0;1;0;0;1;0;0;0;0;0;0;0;0;0;1;0;0;0;0;0;1;0;0;2;0;0;0;0;0;0;0;0;0;1;1;0;1;3;0;1;0;0;0;0;0;0;0;0;0;0;0;0;0;0;1;0;0;0;4;0;0;0;0;0;0;0;0;0;0]%nat); [vm_compute; reflexivity|vm_compute; reflexivity]. Qed.
(** ci gerku ku zo'u le blabi cu ba'o citka gi'e na bajra vau .i bo lu mi klama .i do go'i li'u se cusku do ni'o li pa lo'o cu broda *)
Definition x65_2 : list token := Eval vm_compute in lexed "ci gerku ku zo'u le blabi cu ba'o citka gi'e na bajra vau .i bo lu mi klama .i do go'i li'u se cusku do ni'o li pa lo'o cu broda".
Example C65_example_2 : gens productions [Part Text] x65_2.
Proof. eapply (derive_gens 999 [0;0;3;1;0;0;0;0;4;0;0;0;0;0;0;1;0;0;0;0;0;0;0;0;0;0;0;0;1;2;0;0;0;0;0;0;0;1;0;0;0;0;0;0;0;0;0;1;1;0;0;2;0;0;1;0;0;0;0;0;0;0;0;0;0;0;2;0;0;1;0;0;0;0;0;0;0;0;0;0;0;1;1;0;1;0;0;0;0;0;10;0;0;1;0;1;0;0;0;0;0;0;0;0;0;0;0;0;0;0;1;0;0;0;0;0;0;0;0;0;0;0;0;1;1;0;1;0;0;0;0;0;0;0;0;0;0;0;0;0;0;1;0;0;0;3;0;0;0;0;0;0;0;0;0;0;0;0;0;0;0;0;0;0;1;0;0;1;0;0;0;0;0;0;0;1;0;0;0;0;0;0;0;0;0;0;0;0;1;0;1;4;1;0;0;0;0;0;11;0;0;0;0;0;0;0;0;0;0;1;0;0;0;0;0;0;0;0;0;0;0;0;0;0]%nat); [vm_compute; reflexivity|vm_compute; reflexivity]. Qed.
(** le mi tavla be do bei fi la'e lu mi klama li'u lu'u be'o ke barda bo gerku ja cmalu ke'e pu melbi *)
Definition x65_3 : list token := Eval vm_compute in lexed "le mi tavla be do bei fi la'e lu mi klama li'u lu'u be'o ke barda bo gerku ja cmalu ke'e pu melbi".
Example C65_example_3 : gens productions [Part Text] x65_3.
Proof. eapply (derive_gens 999 [0;0;1;1;1;0;0;2;0;0;0;0;1;0;1;0;0;0;0;0;0;0;0;0;0;1;1;0;0;0;0;12;0;0;0;0;10;0;0;1;0;1;0;0;0;0;0;0;0;0;0;0;0;0;0;0;1;0;0;0;0;0;0;0;0;0;0;0;0;0;0;0;0;0;0;0;0;0;0;1;1;0;0;0;5;0;1;0;0;0;0;1;0;0;0;0;0;1;0;0;0;0;0;0;0;0;0;0;0;0;0;0;0;0;0;0;0;0;0;0;0;0;0;0;0;0]%nat); [vm_compute; reflexivity|vm_compute; reflexivity]. Qed.
(** nu do noi broda ku'o brode kei *)
Definition x65_4 : list token := Eval vm_compute in lexed "nu do noi broda ku'o brode kei".
Example C65_example_4 : gens productions [Part Text] x65_4.
Proof. eapply (derive_gens 999 [0;0;1;0;0;0;0;0;0;0;1;0;0;0;6;0;0;1;0;0;0;0;1;0;0;0;0;0;0;0;0;0;0;0;1;0;0;0;0;0;0;0;0;0;0;0;0;0;0;0;0;0;0;0;1;0;0;0;0;0;0;0;0;0;0;0;0;0;0;0;0;0;0;0;0]%nat); [vm_compute; reflexivity|vm_compute; reflexivity]. Qed.
(** le le broda ku brode ku *)
Definition x65_5 : list token := Eval vm_compute in lexed "le le broda ku brode ku".
Example C65_example_5 : gens productions [Part Text] x65_5.
Proof. eapply (derive_gens 999 [0;0;1;8;0;0;0;0;0;7;2;0;0;0;1;0;0;0;0;0;0;0;0;0;0;0;0;1;0;0;0;0;0;0;0;0;0;0;0;0;0;0;0;0]%nat); [vm_compute; reflexivity|vm_compute; reflexivity]. Qed.
(** ga mi gi do broda *)
Definition x65_6 : list token := Eval vm_compute in lexed "ga mi gi do broda".
Example C65_example_6 : gens productions [Part Text] x65_6.
Proof. eapply (derive_gens 999 [0;0;1;0;1;0;0;0;1;0;0;0;0;0;0;0;0;0;0;0;0;0;0;0;0;0;0;1;0;0;0;0;0;0;0;0;0;0;0;0;0;0]%nat); [vm_compute; reflexivity|vm_compute; reflexivity]. Qed.
(** le gerku .e le mlatu cu na'e klama le zarci le zdani gi'e ke citka ke'e .i le tavla be do cu pu zi melbi *)
Definition x65_7 : list token := Eval vm_compute in lexed "le gerku .e le mlatu cu na'e klama le zarci le zdani gi'e ke citka ke'e .i le tavla be do cu pu zi melbi".
Example C65_example_7 : gens productions [Part Text] x65_7.
Proof. eapply (derive_gens 999 [0;0;1;2;0;0;1;0;0;0;0;1;0;0;0;0;0;0;0;0;0;0;0;0;0;0;0;1;0;0;0;0;0;0;0;0;0;0;2;2;0;0;0;1;0;0;2;0;0;0;0;0;0;0;1;0;0;0;0;0;0;1;0;0;0;0;0;0;0;0;0;0;0;0;0;0;0;0;1;0;0;0;0;0;0;0;0;0;0;0;0;0;0;0;1;0;0;0;0;0;0;0;0;0;0;0;0;0;1;1;3;2;0;0;0;0;0;0;0;0;0;0;0;0;0;0;1;0;0;0;7;0;0;1;0;0;0;0;0;0;0;0;0;0;0;0;0;0]%nat); [vm_compute; reflexivity|vm_compute; reflexivity]. Qed.

(** A text that is generated only after attitudinals are removed and a terminator is added. *)
Definition x65_s : list token := Eval vm_compute in lexed ".ui sai mi ba'e djica le nu do .y klama lu mi klama".
Definition x65_term : list token := Eval vm_compute in lexed "li'u".
Example C65_spoken_example : ~ quotes x65_s /\ ~ contains S_Fuhe x65_s /\ emphasises x65_s /\
  (forall t, In t x65_term -> In (selmaho t) final_elidable) /\
  gens productions [Part Text] (without coloring x65_s ++ x65_term).
Proof.
  split; [evident|]. split; [evident|]. split; [evident|]. split.
  - intros t [<-|[]]. vm_compute. tauto.
  - eapply (derive_gens 999 [0;0;1;5;1;0;0;0;0;0;0;0;0;0;0;0;0;1;0;0;0;0;0;0;0;0;0;0;0;0;1;0;0;0;0;0;0;0;0;0;0;0;0;0;0;1;0;0;0;0;0;0;0;0;0;1;0;0;0;0;0;10;0;0;1;0;1;0;0;0;0;0;0;0;0;0;0;0;0;0;0;1;0;0;0;0;0;0;0;0;0;0;0;0;0;0;0;0;0;0;0;0;0]%nat); [vm_compute; reflexivity|vm_compute; reflexivity].
Qed.

(** Terminators cannot be left out everywhere: without ku'o, ku and gi the last three are rejected. *)
Definition x65_4' : list token := Eval vm_compute in lexed "nu do noi broda brode kei".
Definition x65_5' : list token := Eval vm_compute in lexed "le le broda brode ku".
Definition x65_6' : list token := Eval vm_compute in lexed "ga mi do broda".
Example C65_needed : rejected x65_4' /\ rejected x65_5' /\ rejected x65_6'.
Proof. split; [|split]; evident. Qed.

(** CstThms.v -- lemmas connecting the analyses of CstBalance.v and CstAuto.v with
    the statements of Props_Cst.v. *)
From Verif Require Import Base Span Selmaho Lex Cst CstRules CstApi CstMeta CstTotal SpecCst CstTree CstBalance CstAuto CstShape CstError CstWitness.
From Coq Require Import ZArith Lia Arith.

Definition mem (l : list Selmaho) (s : Selmaho) : bool := existsb (sel_eqb s) l.

Lemma mem_in l s : mem l s = true <-> In s l.
Proof.
  unfold mem. rewrite existsb_exists. split.
  - intros (x & H & E). apply sel_eqb_eq in E. subst. exact H.
  - intros H. exists s. split; [exact H|apply sel_eqb_refl].
Qed.
Lemma mem_notin l s : mem l s = false <-> ~ In s l.
Proof. rewrite <- mem_in. destruct (mem l s); split; congruence. Qed.

Lemma accepted_or_rejected toks : accepted toks \/ rejected toks.
Proof. destruct (cst_parse_run toks) as ([v|e] & H); [left|right]; eexists; exact H. Qed.

Lemma not_accepted toks : ~ accepted toks -> rejected toks.
Proof. destruct (accepted_or_rejected toks); tauto. Qed.

Lemma not_quotes toks : ~ quotes toks <-> (forall t, In t toks -> mem quoting (selmaho t) = false).
Proof.
  split.
  - intros H t Ht. apply mem_notin. intros Hi. apply H. exists (selmaho t). split; [exact Hi|]. exists t. auto.
  - intros H (s & Hs & t & Ht & E). specialize (H t Ht). apply mem_notin in H. subst. exact (H Hs).
Qed.

(** * Terminators *)

Definition pairw (k : Z) (opener closer : list Selmaho) (s : Selmaho) : Z :=
  if mem opener s then k else if mem closer s then (-1)%Z else 0%Z.

Lemma weigh_pair k o c : (forall s, In s o -> ~ In s c) -> forall m,
  weigh (pairw k o c) m = (k * Z.of_nat (number_of o m) - Z.of_nat (number_of c m))%Z.
Proof.
  intros D. induction m as [|t m IH]; [cbn; lia|].
  cbn [weigh fold_right]. fold (weigh (pairw k o c) m). rewrite IH. unfold number_of. cbn [filter].
  unfold pairw at 1. destruct (mem o (selmaho t)) eqn:Eo; unfold mem in Eo; rewrite Eo.
  - assert (Ec : existsb (sel_eqb (selmaho t)) c = false) by (apply mem_notin, D, mem_in, Eo). rewrite Ec. cbn [List.length]. lia.
  - destruct (mem c (selmaho t)) eqn:Ec; unfold mem in Ec; rewrite Ec; cbn [List.length]; lia.
Qed.

Definition term_tables : list (list ab) := Eval vm_compute in
  map (fun x : Selmaho * list Selmaho * nat => let '(c, o, k) := x in ab_table (mem quoting) (pairw (Z.of_nat k) o [c]) 200) terminators.

Definition term_check (y : (Selmaho * list Selmaho * nat) * list ab) : bool :=
  let '((c, o, k), t) := y in
  negb (mem o c) &&
  match check (mem quoting) (pairw (Z.of_nat k) o [c]) t with Good (Some p) _ _ => (0 <=? p)%Z | Vac => true | _ => false end.

Lemma terminators_ok : map fst (combine terminators term_tables) = terminators /\ forallb term_check (combine terminators term_tables) = true.
Proof. split; vm_compute; reflexivity. Qed.

Lemma terminated toks c o k : accepted toks -> ~ quotes toks -> In (c, o, k) terminators ->
  forall x y, toks = x ++ y -> (number_of [c] x <= k * number_of o x)%nat.
Proof.
  intros (root & H) HQ Hin x y E. pose proof terminators_ok as [T0 T]. rewrite forallb_forall in T.
  rewrite <- T0 in Hin. apply in_map_iff in Hin as ([[[c' o'] k'] t] & E0 & Hin). cbn [fst] in E0. injection E0 as -> -> ->. specialize (T _ Hin).
  unfold term_check in T. apply andb_true_iff in T as [T1 T2].
  pose proof (check_sound (mem quoting) (pairw (Z.of_nat k) o [c]) t toks root H (proj1 (not_quotes toks) HQ)) as M.
  assert (D : forall s, In s o -> ~ In s [c]).
  { intros s Hs [<-|[]]. apply mem_in in Hs. rewrite Hs in T1. discriminate. }
  destruct (check _ _ _) as [|[p|] s d]; [destruct M| |discriminate].
  cbn in M. destruct M as [M _]. destruct (M x y E) as [Mp _]. apply Z.leb_le in T2.
  rewrite weigh_pair in Mp by exact D. nia.
Qed.

(** * Automata *)

Lemma auto_reject step n tb bad toks : toks <> [] -> inn (reads step 0 toks) (Some bad) ->
  forallb (fun q => negb (innb q (finals step n tb))) bad = true -> rejected toks.
Proof.
  intros Hm Hb Hf. apply not_accepted. intros (root & H). pose proof (finals_sound step n tb toks root H Hm) as F.
  rewrite forallb_forall in Hf. specialize (Hf _ Hb). rewrite (proj2 (innb_inn step n _ _) F) in Hf. discriminate.
Qed.

Lemma reads_inv step (P : nat -> Prop) m : forall q, P q -> (forall q t, P q -> In t m -> P (step q (selmaho t))) -> P (reads step q m).
Proof.
  induction m as [|t m IH]; intros q Hq Hs; [exact Hq|]. cbn. apply IH.
  - apply Hs; [exact Hq|left; reflexivity].
  - intros q' t' H' Ht'. apply Hs; [exact H'|right; exact Ht'].
Qed.

Lemma reads_snoc step m t : forall q, reads step q (m ++ [t]) = step (reads step q m) (selmaho t).
Proof. induction m as [|u m IH]; intros q; [reflexivity|]. cbn. apply IH. Qed.

Lemma reads_app2 step a b q : reads step q (a ++ b) = reads step (reads step q a) b.
Proof. unfold reads. apply fold_left_app. Qed.

(** unclosed lo'u: 3 just after lo'u, 1 later, 4 just after zo or zei, 2 nothing known *)
Definition lohu_step (q : nat) (s : Selmaho) : nat :=
  match q with
  | 2 => 2
  | 1 => if mem [S_Lehu] s then 0 else 1
  | 3 => if mem [S_Bu] s then 0 else if mem [S_Zei] s then 4 else if mem [S_Bahe] s then 3 else if mem [S_Lehu] s then 0 else 1
  | 4 => if mem [S_Zoi] s then 2 else if mem [S_Zo; S_Zei] s then 4 else 0
  | _ => if mem [S_Zo; S_Zei] s then 4 else if mem [S_Zoi] s then 2 else if mem [S_Lohu] s then 3 else 0
  end%nat.
Definition lohu_table : list rel := Eval vm_compute in auto_table lohu_step 5 (rany lohu_step 5) 30.
Lemma lohu_ok : forallb (fun q => negb (innb q (finals lohu_step 5 lohu_table))) [1; 3]%nat = true.
Proof. vm_compute. reflexivity. Qed.

(** unusable classes: 3 just after one, 4 later, 1 just after zo or zei, 2 nothing known *)
Definition unusable_step (q : nat) (s : Selmaho) : nat :=
  match q with
  | 0 => if mem unusable s then 3 else if mem [S_Zo; S_Zei] s then 1 else if mem [S_Zoi; S_Lohu] s then 2 else 0
  | 1 => if mem [S_Zo; S_Zei] s then 1 else if mem [S_Zoi; S_Lohu] s then 2 else 0
  | 3 => if mem [S_Bu] s then 0 else if mem [S_Zei] s then 1 else if mem [S_Bahe] s then 3 else 4
  | q => q
  end%nat.
Definition unusable_table : list rel := Eval vm_compute in auto_table unusable_step 5 (rany unusable_step 5) 30.
Lemma unusable_ok : forallb (fun q => negb (innb q (finals unusable_step 5 unusable_table))) [3; 4]%nat = true.
Proof. vm_compute. reflexivity. Qed.

Lemma cond_mem l s : (if mem l s then True else ~ In s l) /\ (if mem l s then In s l else True).
Proof. pose proof (mem_in l s). pose proof (mem_notin l s). destruct (mem l s); intuition congruence. Qed.



Lemma contains_app s a b : contains s (a ++ b) <-> contains s a \/ contains s b.
Proof.
  unfold contains. split.
  - intros (t & Ht & E). apply in_app_iff in Ht as [Ht|Ht]; eauto.
  - intros [(t & Ht & E)|(t & Ht & E)]; exists t; rewrite in_app_iff; auto.
Qed.

(** after [a] and the word in question the automaton is in state 3 or [late]; it stays there *)
Lemma stays step (late : nat) (safe : Selmaho -> bool)
  (H3 : forall s, step 3%nat s = if mem [S_Bu] s then 0%nat else if mem [S_Zei] s then step 3%nat s else if mem [S_Bahe] s then 3%nat else step 3%nat s)
  (H3' : forall s, ~ In s [S_Bu; S_Zei; S_Bahe] -> safe s = true -> step 3%nat s = late)
  (HL : forall s, safe s = true -> step late s = late) b : 
  (forall t, In t b -> safe (selmaho t) = true) -> ~ taken_up b ->
  reads step late b = late /\ In (reads step 3 b) [3; late]%nat.
Proof.
  induction b as [|t b IH]; intros Hs Ht; [split; [reflexivity|left; reflexivity]|].
  assert (L : forall b, (forall t, In t b -> safe (selmaho t) = true) -> reads step late b = late).
  { clear - HL. induction b as [|u b IH]; intros H; [reflexivity|]. cbn. rewrite HL by (apply H; left; reflexivity). apply IH. intros; apply H; right; assumption. }
  split; [apply L; exact Hs|]. cbn [reads fold_left]. fold (reads step (step 3%nat (selmaho t)) b).
  destruct (mem [S_Bu; S_Zei; S_Bahe] (selmaho t)) eqn:E.
  - apply mem_in in E. destruct E as [E|[E|[E|[]]]].
    + destruct Ht. exists [], t, b. split; [reflexivity|]. split; [intros w []|]. rewrite <- E. cbn. tauto.
    + destruct Ht. exists [], t, b. split; [reflexivity|]. split; [intros w []|]. rewrite <- E. cbn. tauto.
    + replace (step 3%nat (selmaho t)) with 3%nat by (rewrite H3, <- E; reflexivity). apply IH.
      * intros; apply Hs; right; assumption.
      * intros (x & u & y & -> & Hx & Hu). apply Ht. exists (t :: x), u, y. split; [reflexivity|]. split; [|exact Hu].
        intros w [<-|Hw]; [auto|apply Hx, Hw].
  - apply mem_notin in E. rewrite H3' by (auto; apply Hs; left; reflexivity).
    rewrite L; [right; left; reflexivity|]. intros; apply Hs; right; assumption.
Qed.

Lemma unusable_before a : (reads unusable_step 0 a < 5)%nat /\
  (reads unusable_step 0 a = 2%nat -> contains S_Zoi a \/ contains S_Lohu a) /\
  (reads unusable_step 0 a = 1%nat -> ends_in [S_Zo; S_Zei] a).
Proof.
  induction a as [|t a (L & I2 & I1)] using rev_ind; [cbn; repeat split; [lia|discriminate|discriminate]|].
  rewrite reads_snoc. set (q := reads unusable_step 0 a) in *. clearbody q. rewrite !contains_app.
  assert (C : forall s, selmaho t = s -> contains s [t]) by (intros s Hs; exists t; split; [left; reflexivity|exact Hs]).
  assert (E1 : forall l, mem l (selmaho t) = true -> In (selmaho t) l) by (intros l; apply mem_in).
  assert (EL : mem [S_Zo; S_Zei] (selmaho t) = true -> ends_in [S_Zo; S_Zei] (a ++ [t])) by (intros H; exists a, t; split; [reflexivity|apply E1, H]).
  assert (EZ : mem [S_Zei] (selmaho t) = true -> ends_in [S_Zo; S_Zei] (a ++ [t])).
  { intros H; exists a, t; split; [reflexivity|]. apply E1 in H. cbn in *. tauto. }
  assert (EQ : mem [S_Zoi; S_Lohu] (selmaho t) = true -> contains S_Zoi [t] \/ contains S_Lohu [t]).
  { intros H. apply E1 in H. destruct H as [H|[H|[]]]; auto. }
  destruct q as [|[|[|[|[|q]]]]]; [| | | | |lia]; cbn [unusable_step];
    repeat match goal with |- context[mem ?l ?s] => destruct (mem l s) eqn:? end;
    repeat split; try lia; try discriminate; intros; tauto.
Qed.

Lemma unusable_word toks a u b : toks = a ++ u :: b -> In (selmaho u) unusable ->
  ~ contains S_Zoi a -> ~ contains S_Lohu a -> ~ ends_in [S_Zo; S_Zei] a -> ~ taken_up b -> rejected toks.
Proof.
  intros -> Hu N1 N2 N3 N4. apply (auto_reject unusable_step 5 unusable_table [3; 4]%nat); [destruct a; discriminate| |apply unusable_ok].
  cbn [inn]. rewrite reads_app2. cbn [reads fold_left]. fold (reads unusable_step 0 a).
  fold (reads unusable_step (unusable_step (reads unusable_step 0 a) (selmaho u)) b).
  destruct (unusable_before a) as (L & I2 & I1).
  destruct (stays unusable_step 4%nat (fun _ => true)) with (b := b) as [S4 S3].
  - intros s. cbn [unusable_step lohu_step]. destruct (mem [S_Bu] s), (mem [S_Zei] s), (mem [S_Bahe] s); reflexivity.
  - intros s Hs _. cbn. apply mem_notin in Hs. unfold mem in *. cbn in *.
    destruct (sel_eqb s S_Bu), (sel_eqb s S_Zei), (sel_eqb s S_Bahe); try discriminate; reflexivity.
  - reflexivity.
  - reflexivity.
  - exact N4.
  - apply mem_in in Hu as Hm. destruct (reads unusable_step 0 a) as [|[|[|[|[|q]]]]]; [| | | | |lia].
    + cbn [unusable_step]. rewrite Hm. exact S3.
    + destruct (N3 (I1 eq_refl)).
    + destruct (I2 eq_refl); tauto.
    + assert (D : forallb (fun s => negb (mem [S_Bu] s) && negb (mem [S_Zei] s) && negb (mem [S_Bahe] s)) unusable = true) by (vm_compute; reflexivity).
      rewrite forallb_forall in D. specialize (D _ Hu). rewrite !andb_true_iff, !negb_true_iff in D. destruct D as [[D1 D2] D3].
      cbn [unusable_step]. rewrite D1, D2, D3. rewrite S4. right. left. reflexivity.
    + cbn [unusable_step]. rewrite S4. right. left. reflexivity.
Qed.

Lemma lohu_before a : (reads lohu_step 0 a < 5)%nat /\
  (reads lohu_step 0 a = 2%nat -> contains S_Zoi a) /\
  (reads lohu_step 0 a = 4%nat -> ends_in [S_Zo; S_Zei] a).
Proof.
  induction a as [|t a (L & I2 & I1)] using rev_ind; [cbn; repeat split; [lia|discriminate|discriminate]|].
  rewrite reads_snoc. set (q := reads lohu_step 0 a) in *. clearbody q. rewrite !contains_app.
  assert (E1 : forall l, mem l (selmaho t) = true -> In (selmaho t) l) by (intros l; apply mem_in).
  assert (EL : mem [S_Zo; S_Zei] (selmaho t) = true -> ends_in [S_Zo; S_Zei] (a ++ [t])) by (intros H; exists a, t; split; [reflexivity|apply E1, H]).
  assert (EZ : mem [S_Zei] (selmaho t) = true -> ends_in [S_Zo; S_Zei] (a ++ [t])).
  { intros H; exists a, t; split; [reflexivity|]. apply E1 in H. cbn in *. tauto. }
  assert (EQ : mem [S_Zoi] (selmaho t) = true -> contains S_Zoi [t]).
  { intros H. apply E1 in H. destruct H as [H|[]]. exists t. split; [left; reflexivity|congruence]. }
  destruct q as [|[|[|[|[|q]]]]]; [| | | | |lia]; cbn [lohu_step];
    repeat match goal with |- context[mem ?l ?s] => destruct (mem l s) eqn:? end;
    repeat split; try lia; try discriminate; intros; tauto.
Qed.

Lemma lohu_word toks a u b : toks = a ++ u :: b -> selmaho u = S_Lohu ->
  ~ contains S_Zoi a -> ~ ends_in [S_Zo; S_Zei] a -> ~ contains S_Lehu b -> ~ taken_up b -> rejected toks.
Proof.
  intros -> Hu N1 N3 N2 N4. apply (auto_reject lohu_step 5 lohu_table [1; 3]%nat); [destruct a; discriminate| |apply lohu_ok].
  cbn [inn]. rewrite reads_app2. cbn [reads fold_left]. fold (reads lohu_step 0 a). rewrite Hu.
  fold (reads lohu_step (lohu_step (reads lohu_step 0 a) S_Lohu) b).
  destruct (lohu_before a) as (L & I2 & I1).
  destruct (stays lohu_step 1%nat (fun s => negb (mem [S_Lehu] s))) with (b := b) as [S4 S3].
  - intros s. cbn [unusable_step lohu_step]. destruct (mem [S_Bu] s), (mem [S_Zei] s), (mem [S_Bahe] s); reflexivity.
  - intros s Hs E. cbn [lohu_step]. apply mem_notin in Hs. unfold mem in *. cbn in *.
    destruct (sel_eqb s S_Bu), (sel_eqb s S_Zei), (sel_eqb s S_Bahe), (sel_eqb s S_Lehu); try discriminate; reflexivity.
  - intros s E. cbn [lohu_step]. destruct (mem [S_Lehu] s); [discriminate|reflexivity].
  - intros t Ht. destruct (mem [S_Lehu] (selmaho t)) eqn:E; [|reflexivity]. apply mem_in in E as [E|[]]. destruct N2. exists t. auto.
  - exact N4.
  - assert (G : forall x, In x [3; 1]%nat -> In x [1; 3]%nat) by (cbn; tauto).
    destruct (reads lohu_step 0 a) as [|[|[|[|[|q]]]]]; [| | | | |lia].
    + change (lohu_step 0 S_Lohu) with 3%nat. apply G, S3.
    + change (lohu_step 1 S_Lohu) with 1%nat. rewrite S4. left. reflexivity.
    + destruct (N1 (I2 eq_refl)).
    + change (lohu_step 3 S_Lohu) with 1%nat. rewrite S4. left. reflexivity.
    + destruct (N3 (I1 eq_refl)).
Qed.

(** classes a text cannot end with *)
Definition last_step (q : nat) (s : Selmaho) : nat :=
  match q with 2 => 2 | _ => if mem quoting s then 2 else if mem never_last s || mem unusable s || mem [S_Lehu] s then 1 else 0 end%nat.
Definition last_table : list rel := Eval vm_compute in auto_table last_step 3 (rany last_step 3) 30.
Lemma last_ok : forallb (fun q => negb (innb q (finals last_step 3 last_table))) [1]%nat = true.
Proof. vm_compute. reflexivity. Qed.

Definition first_step (q : nat) (s : Selmaho) : nat :=
  if mem quoting s then 2%nat else
  match q with O => if mem never_first s || mem unusable s || mem [S_Lehu] s then 1 else 3 | q => q end%nat.
Definition first_table : list rel := Eval vm_compute in auto_table first_step 4 (rany first_step 4) 30.
Lemma first_ok : forallb (fun q => negb (innb q (finals first_step 4 first_table))) [1]%nat = true.
Proof. vm_compute. reflexivity. Qed.

(** le'u without lo'u *)
Definition lehu_step (q : nat) (s : Selmaho) : nat :=
  if mem quoting s then 2%nat else match q with O => if mem [S_Lehu] s then 1 else 0 | q => q end%nat.
Definition lehu_table : list rel := Eval vm_compute in auto_table lehu_step 3 (rany lehu_step 3) 30.
Lemma lehu_ok : forallb (fun q => negb (innb q (finals lehu_step 3 lehu_table))) [1]%nat = true.
Proof. vm_compute. reflexivity. Qed.

(** * Witnesses *)

Definition plain (s : Selmaho) : token := mktok false s (mkspan 0 0).
Definition accepts (l : list Selmaho) : bool := match cst_parse (map plain l) with Ret (inl _) => true | _ => false end.
Definition unquoted (l : list Selmaho) : bool := forallb (fun s => negb (mem quoting s)) l.

Lemma usable_examples_ok : forallb (fun l => accepts l && unquoted l) usable_examples = true.
Proof. vm_compute. reflexivity. Qed.
Lemma final_examples_ok : forallb (fun l => accepts l && unquoted l) final_examples = true.
Proof. vm_compute. reflexivity. Qed.
Lemma initial_examples_ok : forallb (fun l => accepts l && unquoted l) initial_examples = true.
Proof. vm_compute. reflexivity. Qed.

Definition ordinaryb (s : Selmaho) : bool := negb (mem quoting s) && negb (mem [S_Lehu] s) && negb (mem unusable s).

Lemma ordinary_b s : ordinary s -> ordinaryb s = true.
Proof.
  intros (H1 & H2 & H3). unfold ordinaryb. rewrite (proj2 (mem_notin _ _) H1), (proj2 (mem_notin _ _) H3).
  rewrite (proj2 (mem_notin [S_Lehu] s)); [reflexivity|]. intros [Hi|[]]. congruence.
Qed.

Lemma usable_cover : forallb (fun s => negb (ordinaryb s) || existsb (fun l => mem l s) usable_examples) all_selmaho = true.
Proof. vm_compute. reflexivity. Qed.
Lemma final_cover : forallb (fun s => negb (ordinaryb s) || mem never_last s || existsb (fun l => sel_eqb (last l S_AnyText) s) final_examples) all_selmaho = true.
Proof. vm_compute. reflexivity. Qed.
Lemma initial_cover : forallb (fun s => negb (ordinaryb s) || mem never_first s || existsb (fun l => sel_eqb (hd S_AnyText l) s) initial_examples) all_selmaho = true.
Proof. vm_compute. reflexivity. Qed.

Lemma example_ok l : accepts l = true -> unquoted l = true -> accepted (map plain l) /\ ~ quotes (map plain l).
Proof.
  intros H1 H2. split.
  - unfold accepts in H1. destruct (cst_parse (map plain l)) as [[v|]| |] eqn:E; try discriminate. exists v. exact E.
  - apply not_quotes. intros t Ht. apply in_map_iff in Ht as (s & <- & Hs). unfold unquoted in H2. rewrite forallb_forall in H2.
    specialize (H2 s Hs). change (mem quoting s = false). destruct (mem quoting s); [discriminate|reflexivity].
Qed.

Lemma usable s : ordinary s -> exists toks, accepted toks /\ ~ quotes toks /\ contains s toks.
Proof.
  intros H. apply ordinary_b in H. pose proof usable_cover as C. rewrite forallb_forall in C. specialize (C s (all_selmaho_in s)).
  rewrite H in C. cbn [negb orb] in C. apply existsb_exists in C as (l & Hl & Hm).
  pose proof usable_examples_ok as U. rewrite forallb_forall in U. specialize (U l Hl). apply andb_true_iff in U as [U1 U2].
  destruct (example_ok l U1 U2) as [E1 E2]. exists (map plain l). split; [exact E1|]. split; [exact E2|].
  exists (plain s). split; [apply in_map, mem_in, Hm|reflexivity].
Qed.

Lemma final s : ordinary s -> ~ In s never_last ->
  exists toks t, accepted (toks ++ [t]) /\ ~ quotes (toks ++ [t]) /\ selmaho t = s.
Proof.
  intros H N. apply ordinary_b in H. pose proof final_cover as C. rewrite forallb_forall in C. specialize (C s (all_selmaho_in s)).
  apply mem_notin in N. rewrite H, N in C. cbn [negb orb] in C. apply existsb_exists in C as (l & Hl & Hm). apply sel_eqb_eq in Hm.
  pose proof final_examples_ok as U. rewrite forallb_forall in U. specialize (U l Hl). apply andb_true_iff in U as [U1 U2].
  destruct (example_ok l U1 U2) as [E1 E2].
  destruct l as [|x l] using rev_ind; [cbn in Hm; subst s; vm_compute in H; discriminate|]. clear IHl.
  rewrite last_last in Hm. subst x. rewrite map_app in E1, E2. cbn [map] in E1, E2. exists (map plain l), (plain s). auto.
Qed.

Lemma initial s : ordinary s -> ~ In s never_first ->
  exists toks t, accepted (t :: toks) /\ ~ quotes (t :: toks) /\ selmaho t = s.
Proof.
  intros H N. apply ordinary_b in H. pose proof initial_cover as C. rewrite forallb_forall in C. specialize (C s (all_selmaho_in s)).
  apply mem_notin in N. rewrite H, N in C. cbn [negb orb] in C. apply existsb_exists in C as (l & Hl & Hm). apply sel_eqb_eq in Hm.
  pose proof initial_examples_ok as U. rewrite forallb_forall in U. specialize (U l Hl). apply andb_true_iff in U as [U1 U2].
  destruct (example_ok l U1 U2) as [E1 E2].
  destruct l as [|x l]; [cbn in Hm; subst s; vm_compute in H; discriminate|].
  cbn [hd] in Hm. subst x. cbn [map] in E1, E2. exists (map plain l), (plain s). auto.
Qed.

Lemma accepted_auto step n tb bad toks : accepted toks -> toks <> [] ->
  forallb (fun q => negb (innb q (finals step n tb))) bad = true -> ~ In (reads step 0 toks) bad.
Proof.
  intros (root & H) Hm Hf Hb. destruct (auto_reject step n tb bad toks Hm Hb Hf) as (e & He). congruence.
Qed.

Lemma ordinary_of s : mem quoting s = false -> mem never_last s || mem unusable s || mem [S_Lehu] s = false -> ordinary s /\ ~ In s never_last.
Proof.
  intros H1 H2. rewrite !orb_false_iff in H2. destruct H2 as [[H2 H3] H4]. apply mem_notin in H1, H2, H3, H4.
  repeat split; auto. intros ->. apply H4. left. reflexivity.
Qed.
Lemma ordinary_of' s : mem quoting s = false -> mem never_first s || mem unusable s || mem [S_Lehu] s = false -> ordinary s /\ ~ In s never_first.
Proof.
  intros H1 H2. rewrite !orb_false_iff in H2. destruct H2 as [[H2 H3] H4]. apply mem_notin in H1, H2, H3, H4.
  repeat split; auto. intros ->. apply H4. left. reflexivity.
Qed.

Lemma last_word toks t s : accepted (toks ++ [t]) -> ~ quotes (toks ++ [t]) -> selmaho t = s -> ordinary s /\ ~ In s never_last.
Proof.
  intros H N <-. pose proof (proj1 (not_quotes _) N) as Q.
  pose proof (accepted_auto _ _ _ _ _ H ltac:(destruct toks; discriminate) last_ok) as B. rewrite reads_snoc in B.
  assert (I : In (reads last_step 0 toks) [0; 1]%nat).
  { apply (reads_inv last_step (fun q => In q [0; 1]%nat)); [left; reflexivity|]. intros q u Hq Hu.
    specialize (Q u ltac:(apply in_or_app; auto)). destruct Hq as [<-|[<-|[]]]; cbn [last_step]; rewrite Q;
      destruct (_ || _); cbn; tauto. }
  specialize (Q t ltac:(apply in_or_app; right; left; reflexivity)). apply ordinary_of; [exact Q|].
  destruct I as [I|[I|[]]]; rewrite <- I in B; cbn [last_step] in B; rewrite Q in B; destruct (_ || _); auto; destruct B; left; reflexivity.
Qed.

Lemma first_word toks t s : accepted (t :: toks) -> ~ quotes (t :: toks) -> selmaho t = s -> ordinary s /\ ~ In s never_first.
Proof.
  intros H N <-. pose proof (proj1 (not_quotes _) N) as Q.
  pose proof (accepted_auto _ _ _ _ _ H ltac:(discriminate) first_ok) as B.
  assert (Qt := Q t (or_introl eq_refl)). apply ordinary_of'; [exact Qt|].
  destruct (_ || _) eqn:E; [|reflexivity]. destruct B. left.
  change (1%nat = reads first_step (first_step 0 (selmaho t)) toks). unfold first_step at 2. rewrite Qt, E.
  symmetry. apply (reads_inv first_step (fun q => q = 1%nat)); [reflexivity|]. intros q u -> Hu. unfold first_step.
  rewrite (Q u (or_intror Hu)). reflexivity.
Qed.

Lemma lehu_word toks : contains S_Lehu toks -> ~ quotes toks -> rejected toks.
Proof.
  intros (t & Ht & Et) N. pose proof (proj1 (not_quotes _) N) as Q. apply in_split in Ht as (a & b & E).
  apply (auto_reject lehu_step 3 lehu_table [1]%nat); [rewrite E; destruct a; discriminate| |apply lehu_ok].
  left. rewrite E, reads_app2. cbn [reads fold_left]. fold (reads lehu_step 0 a).
  assert (I : In (reads lehu_step 0 a) [0; 1]%nat).
  { apply (reads_inv lehu_step (fun q => In q [0; 1]%nat)); [left; reflexivity|]. intros q u Hq Hu.
    unfold lehu_step. rewrite (Q u) by (rewrite E; apply in_or_app; auto). destruct Hq as [<-|[<-|[]]]; [destruct (mem _ _)|]; cbn; tauto. }
  assert (S1 : lehu_step (reads lehu_step 0 a) (selmaho t) = 1%nat).
  { rewrite Et. destruct I as [<-|[<-|[]]]; vm_compute; reflexivity. }
  rewrite S1. symmetry. apply (reads_inv lehu_step (fun q => q = 1%nat)); [reflexivity|]. intros q u -> Hu. unfold lehu_step.
  rewrite (Q u) by (rewrite E; apply in_or_app; right; right; exact Hu). reflexivity.
Qed.

(** * Errors *)

Lemma otoken_eqb_spec a b : otoken_eqb a b = true <-> a = b.
Proof.
  destruct a as [[e s [x y]]|], b as [[e' s' [x' y']]|]; cbn; try (split; congruence).
  unfold token_eqb. cbn. rewrite !andb_true_iff, !N.eqb_eq. split.
  - intros [[[E1 E2] ->] ->]. apply eqb_prop in E1. apply sel_eqb_eq in E2. congruence.
  - intros [= -> -> -> ->]. rewrite sel_eqb_refl, eqb_reflx. auto.
Qed.

Lemma err_or_spec a b :
  ((List.length (location a) < List.length (location b))%nat -> err_or a b = a) /\
  ((List.length (location b) < List.length (location a))%nat -> err_or a b = b) /\
  (location a = location b -> forall l l' g, cerr a = ExpectedGot l g -> cerr b = ExpectedGot l' g ->
     err_or a b = mkerr (location a) (ExpectedGot (l ++ l') g)) /\
  (location a = location b -> (forall l l' g, ~ (cerr a = ExpectedGot l g /\ cerr b = ExpectedGot l' g)) -> err_or a b = b).
Proof.
  unfold err_or. repeat split.
  - intros H. apply Nat.ltb_lt in H. rewrite H. reflexivity.
  - intros H. replace (Nat.ltb (List.length (location a)) (List.length (location b))) with false by (symmetry; apply Nat.ltb_ge; lia).
    apply Nat.ltb_lt in H. rewrite H. reflexivity.
  - intros -> l l' g -> ->. rewrite Nat.ltb_irrefl. rewrite (proj2 (otoken_eqb_spec g g) eq_refl). reflexivity.
  - intros -> H. rewrite Nat.ltb_irrefl. destruct (cerr a) as [l g| | |], (cerr b) as [l' g'| | |]; try reflexivity.
    destruct (otoken_eqb g g') eqn:E; [|reflexivity]. apply otoken_eqb_spec in E. subst. destruct (H l l' g'). auto.
Qed.

Lemma or_l a b : (List.length (location a) < List.length (location b))%nat -> err_or a b = a.
Proof. apply err_or_spec. Qed.
Lemma or_r a b : (List.length (location b) < List.length (location a))%nat -> err_or a b = b.
Proof. apply err_or_spec. Qed.
Lemma or_m l g x y : err_or (mkerr l (ExpectedGot x g)) (mkerr l (ExpectedGot y g)) = mkerr l (ExpectedGot (x ++ y) g).
Proof. apply (err_or_spec (mkerr l (ExpectedGot x g)) (mkerr l (ExpectedGot y g))); reflexivity. Qed.

Lemma err_or_assoc a b c :
  (forall x y, In x [a; b; c] -> In y [a; b; c] -> List.length (location x) = List.length (location y) ->
     location x = location y /\ exists l l' g, cerr x = ExpectedGot l g /\ cerr y = ExpectedGot l' g) ->
  err_or (err_or a b) c = err_or a (err_or b c).
Proof.
  intros H.
  assert (Hab := H a b ltac:(cbn; tauto) ltac:(cbn; tauto)). assert (Hbc := H b c ltac:(cbn; tauto) ltac:(cbn; tauto)).
  assert (Hac := H a c ltac:(cbn; tauto) ltac:(cbn; tauto)). clear H.
  destruct a as [la ea], b as [lb eb], c as [lc ec]. cbn [location cerr] in *.
  destruct (lt_eq_lt_dec (List.length la) (List.length lb)) as [[D1|D1]|D1];
  destruct (lt_eq_lt_dec (List.length lb) (List.length lc)) as [[D2|D2]|D2];
  destruct (lt_eq_lt_dec (List.length la) (List.length lc)) as [[D3|D3]|D3]; try lia;
  try (destruct (Hab D1) as (-> & l1 & l2 & g1 & -> & ->)); try (destruct (Hbc D2) as (-> & l3 & l4 & g2 & K1 & ->));
  try (destruct (Hac D3) as (-> & l5 & l6 & g3 & K2 & K3)); try (injection K1 as -> ->); try subst eb; try subst ea; try subst ec;
  repeat first [ rewrite or_m
    | match goal with |- context[err_or (mkerr ?x ?e) (mkerr ?y ?f)] =>
        first [rewrite (or_l (mkerr x e) (mkerr y f)) by (cbn [location]; lia) | rewrite (or_r (mkerr x e) (mkerr y f)) by (cbn [location]; lia)] end ];
  rewrite ?app_assoc; try reflexivity.
Qed.

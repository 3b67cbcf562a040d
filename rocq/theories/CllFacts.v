(** CllFacts.v -- the table of the source against the reference list. *)
From Verif Require Import Base Utf8 Peg Rules RulesApi PegMeta RulesTotal PegChars PegSim Selmaho ClassifyTable Classify SpecText SpecCmavo SpecCll ClassifyFacts ClassifyThms.
From Coq Require Import Lia.

Definition smem (x : string) (l : list string) : bool := existsb (String.eqb x) l.
Lemma smem_In x l : smem x l = true <-> In x l.
Proof.
  unfold smem. rewrite existsb_exists. split.
  - intros (y & Hy & E). apply String.eqb_eq in E. subst. exact Hy.
  - intros H. exists x. split; [exact H|apply String.eqb_refl].
Qed.

Definition arms_of (k : string) : list (list string * Selmaho) :=
  flat_map (fun a => match a with (Lits l, s, false) => if String.eqb (as_repr s) k then [(l, s)] else [] | _ => [] end) table_arms.
Lemma arms_of_In k l s : In (l, s) (arms_of k) -> In (Lits l, s, false) table_arms /\ as_repr s = k.
Proof.
  unfold arms_of. rewrite in_flat_map. intros ([[p s'] e] & Ha & H). destruct p as [l'|]; [|destruct H]. destruct e; [destruct H|].
  destruct (String.eqb (as_repr s') k) eqn:E; [|destruct H]. destruct H as [[= -> ->]|[]]. split; [exact Ha|]. apply String.eqb_eq, E.
Qed.

Definition cll_ok : bool :=
  forallb (fun e : string * list string => let a := arms_of (fst e) in
             forallb (fun x => smem x ["ja'i"; "po'i"]%string || existsb (fun b : list string * Selmaho => smem x (fst b)) a && (blen (lit x) <=? 16)
                               && negb (existsb (fun b : list string * Selmaho => is_fundamentally_experimental (snd b)) a)) (snd e)) cll_cmavo.
Lemma cll_ok_true : cll_ok = true.
Proof. vm_compute. reflexivity. Qed.

Lemma cll_listed k x : cll_member k x -> ~ In x ["ja'i"; "po'i"]%string ->
  exists s, listed (lit x) s false /\ as_repr s = k /\ is_fundamentally_experimental s = false /\ blen (lit x) <= 16.
Proof.
  intros (l & Hl & Hx) Hn. pose proof cll_ok_true as H. unfold cll_ok in H. rewrite forallb_forall in H. specialize (H _ Hl). cbv zeta in H. cbn [fst snd] in H.
  rewrite forallb_forall in H. specialize (H _ Hx). apply orb_true_iff in H as [H|H]; [apply smem_In in H; contradiction|].
  apply andb_true_iff in H as [H H3]. apply andb_true_iff in H as [H1 H2]. apply existsb_exists in H1 as ([l' s] & Ha & Hm). cbn [fst] in Hm.
  pose proof (arms_of_In _ _ _ Ha) as [A1 A2]. exists s. split; [|split; [exact A2|split]].
  - left. exists l', x. split; [exact A1|]. split; [apply smem_In, Hm|reflexivity].
  - apply negb_true_iff in H3. destruct (is_fundamentally_experimental s) eqn:E; [|reflexivity]. exfalso.
    assert (X : existsb (fun b : list string * Selmaho => is_fundamentally_experimental (snd b)) (arms_of k) = true) by (apply existsb_exists; exists (l', s); auto). congruence.
  - apply N.leb_le, H2.
Qed.

Lemma cll_classified w k x : cll_member k x -> ~ In x ["ja'i"; "po'i"]%string -> spelling (txt w) = lit x ->
  exists s, classify w = Ret (s, false) /\ as_repr s = k.
Proof.
  intros H Hn E. destruct (cll_listed k x H Hn) as (s & L & R & F & B). exists s. split; [|exact R].
  rewrite <- E in L, B. rewrite (classify_known w s false L B), F. reflexivity.
Qed.

Definition extra_cmavo : list string := ["ci'a"; "0"; "1"; "2"; "3"; "4"; "5"; "6"; "7"; "8"; "9"]%string.
Definition cll_assoc (k : string) : list string :=
  flat_map (fun e : string * list string => if String.eqb (fst e) k then snd e else []) cll_cmavo.
Definition only_ok : bool :=
  forallb (fun a => match a with
                    | (Lits l, s, false) => is_fundamentally_experimental s || (let m := cll_assoc (as_repr s) in forallb (fun x => smem x m || smem x extra_cmavo) l)
                    | (Lits _, _, true) => true
                    | (AllY, s, _) => String.eqb (as_repr s) "Y"
                    end) table_arms.
Lemma only_ok_true : only_ok = true.
Proof. vm_compute. reflexivity. Qed.

Lemma cll_only w s : scalars (txt w) -> classify w = Ret (s, false) -> ~ is_word_class s ->
  (exists x, cll_member (as_repr s) x /\ spelling (txt w) = lit x) \/
  (exists x, In x extra_cmavo /\ spelling (txt w) = lit x) \/
  (as_repr s = "Y"%string /\ exists n, spelling (txt w) = repeat 121 (S n)).
Proof.
  intros Hs H Hw.
  assert (L : exists e, listed (spelling (txt w)) s e).
  { rewrite classify_spec in H by exact Hs. unfold class_of, entry in H. rewrite spelling_spell in *.
    destruct (if blen (spell (txt w)) <=? 16 then table_lookup table_arms (spell (txt w)) else None) as [[s' e']|] eqn:E.
    - injection H as -> _. exists e'. apply lookup_listed. destruct (blen (spell (txt w)) <=? 16); [exact E|discriminate].
    - exfalso. injection H as H1 H2. rewrite H1 in H2.
     
      assert (E2 : In s general_classes) by (rewrite <- H1; apply general_class_in). unfold is_word_class in Hw. cbn in E2, Hw.
      repeat (destruct E2 as [<-|E2]; [first [tauto|discriminate H2]|]). destruct E2. }
  destruct L as (e & L). destruct e.
  { exfalso. assert (X := proj2 (classify_flag w s false H Hs)). assert (B : blen (spelling (txt w)) <= 16).
    { destruct (N.leb_spec (blen (spelling (txt w))) 16) as [B|B]; [exact B|]. exfalso.
      pose proof (classify_unknown w s false H Hs (or_intror B)) as U. exact (listed_not_general _ _ _ L (or_intror U)). }
    specialize (X (or_intror (conj L B))). discriminate. }
  assert (F : is_fundamentally_experimental s = false).
  { destruct (is_fundamentally_experimental s) eqn:F; [|reflexivity]. apply experimental_spec in F. pose proof (proj2 (classify_flag w s false H Hs) (or_introl F)). discriminate. }
  pose proof only_ok_true as O. unfold only_ok in O. rewrite forallb_forall in O.
  destruct L as [(l & x & Ha & Hx & E)|[Ha (n & E)]].
  - specialize (O _ Ha). cbv beta iota in O. rewrite F in O. cbn [orb] in O. cbv zeta in O. rewrite forallb_forall in O. specialize (O _ Hx).
    apply orb_true_iff in O as [O|O]; apply smem_In in O.
    + left. exists x. split; [|exact E]. unfold cll_assoc in O. apply in_flat_map in O as ([k l'] & Hk & O). cbn [fst snd] in O.
      destruct (String.eqb k (as_repr s)) eqn:Ek; [|destruct O]. apply String.eqb_eq in Ek. subst k. exists l'. auto.
    + right. left. exists x. auto.
  - right. right. specialize (O _ Ha). cbv beta iota in O. apply String.eqb_eq in O. split; [exact O|]. exists n. exact E.
Qed.

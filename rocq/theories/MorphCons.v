(** MorphCons.v -- adjacent consonants of words, and texts reduced to their letters. *)
From Verif Require Import Base Peg Rules RulesApi PegMeta RulesTotal PegChars PegSim SymPeg SpecText SpecMorph MorphFacts.
From Coq Require Import Lia Arith.

(** * Letters *)
Lemma is_comma_eqb c : is_comma c = (c =? 44).
Proof. reflexivity. Qed.

Lemma letters_no_comma t : Forall (fun c => is_comma c = false) (letters t).
Proof.
  unfold letters. apply Forall_forall. intros c H. apply filter_In in H as [_ H]. rewrite is_comma_eqb.
  destruct (c =? 44); [discriminate|reflexivity].
Qed.

Lemma letters_id t : Forall (fun c => is_comma c = false) t -> letters t = t.
Proof.
  induction 1 as [|c t Hc Ht IH]; [reflexivity|]. unfold letters in *. cbn [filter]. rewrite is_comma_eqb in Hc. rewrite Hc. cbn [negb].
  rewrite IH. reflexivity.
Qed.

Lemma ends_comma_plain t : Forall (fun c => is_comma c = false) t -> ends_comma t = false.
Proof.
  intros H. unfold ends_comma. destruct t as [|c t] using rev_ind; [reflexivity|]. rewrite last_last.
  apply Forall_app in H as [_ H]. inversion H; assumption.
Qed.

Lemma sim_letters t : ends_comma t = false -> sim t (letters t).
Proof.
  intros H. split; [|rewrite H, ends_comma_plain; [reflexivity|apply letters_no_comma]].
  unfold spell_by. f_equal. change (letters t = letters (letters t)). symmetry. apply letters_id, letters_no_comma.
Qed.

Lemma accepts_all_letters x t : accepts_all x t = negb (ends_comma t) && accepts_all x (letters t).
Proof.
  destruct (ends_comma t) eqn:E; cbn [negb andb].
  - unfold accepts_all. destruct (ev (Call x) t) as [[|c r]|] eqn:Ee; try reflexivity.
    apply ev_eats in Ee as [->|(m & c & -> & Hc & _)]; [discriminate|]. unfold ends_comma in E. rewrite last_last in E. congruence.
  - apply (accepts_all_sim norm good_norm_norm), sim_letters, E.
Qed.

Lemma lower_cases c : lower c = c \/ (65 <= c <= 90 /\ lower c = c + 32).
Proof.
  unfold lower. destruct (N.leb_spec 65 c), (N.leb_spec c 90); cbn [andb]; auto.
Qed.

Lemma lower_in c L : In (lower c) L -> In c (L ++ map (fun d => d - 32) L).
Proof.
  intros H. apply in_or_app. destruct (lower_cases c) as [E|[Hc E]]; rewrite E in H; [left; exact H|right].
  apply in_map_iff. exists (c + 32). split; [lia|exact H].
Qed.

(** a property of finitely many chars, by computation *)
Lemma char_sweep (L : list char) (f : char -> bool) c : forallb f L = true -> In c L -> f c = true.
Proof. apply forallb_in. Qed.

Definition CONS : list char := lit "bcdfgjklmnprstvxzBCDFGJKLMNPRSTVXZ".
Definition memb (c : char) (l : list char) : bool := existsb (fun d => c =? d) l.
Lemma memb_In c l : memb c l = true <-> In c l.
Proof.
  unfold memb. rewrite existsb_exists. split.
  - intros (d & Hd & E). apply N.eqb_eq in E. subst. exact Hd.
  - intros H. exists c. rewrite N.eqb_refl. auto.
Qed.
Fixpoint list_eqb (a b : list char) : bool :=
  match a, b with
  | [], [] => true
  | x :: a', y :: b' => (x =? y) && list_eqb a' b'
  | _, _ => false
  end.
Lemma list_eqb_eq a : forall b, list_eqb a b = true <-> a = b.
Proof.
  induction a as [|x a IH]; intros [|y b]; cbn; try (split; congruence).
  rewrite andb_true_iff, N.eqb_eq, IH. split; [intros [-> ->]; reflexivity|intros [= -> ->]; auto].
Qed.
Definition lmemb (w : list char) (l : list (list char)) : bool := existsb (list_eqb w) l.
Lemma lmemb_In w l : lmemb w l = true <-> In w l.
Proof.
  unfold lmemb. rewrite existsb_exists. split.
  - intros (d & Hd & E). apply list_eqb_eq in E. subst. exact Hd.
  - intros H. exists w. split; [exact H|apply list_eqb_eq; reflexivity].
Qed.

Lemma consonant_CONS c : consonant_letter c <-> In c CONS.
Proof.
  split.
  - intros H. apply lower_in in H. exact H.
  - intros H. apply memb_In. apply (char_sweep CONS (fun c => memb (lower c) (lit "bcdfgjklmnprstvxz"))); [vm_compute; reflexivity|exact H].
Qed.

Lemma cons_nt_CONS c : In c CONS <-> exists x, cons_nt c = Some x.
Proof.
  split.
  - intros H. assert (K : match cons_nt c with Some _ => true | None => false end = true).
    { apply (char_sweep CONS (fun c => match cons_nt c with Some _ => true | None => false end)); [vm_compute; reflexivity|exact H]. }
    destruct (cons_nt c) as [x|]; [exists x; reflexivity|discriminate].
  - intros (x & H). assert (G : forall L, assoc c L = Some x -> In c (map fst L)).
    { induction L as [|[d y] L IH]; cbn [assoc map fst In]; [discriminate|].
      destruct (N.eqb_spec c d) as [->|]; [left; reflexivity|]. intros K. right. apply IH, K. }
    exact (G LETTERS H).
Qed.

(** * Permissible pairs, decided *)
Definition perm_b (x y : char) : bool :=
  let x := lower x in let y := lower y in
  memb x (lit "bcdfgjklmnprstvxz") && memb y (lit "bcdfgjklmnprstvxz") && negb (x =? y) &&
  negb (memb x (lit "bdgjvz") && memb y (lit "cfkpstx")) && negb (memb x (lit "cfkpstx") && memb y (lit "bdgjvz")) &&
  negb (memb x (lit "cjsz") && memb y (lit "cjsz")) &&
  negb (lmemb [x; y] [lit "cx"; lit "kx"; lit "xc"; lit "xk"; lit "mz"]).

Lemma perm_b_spec x y : perm_b x y = true <-> permissible x y.
Proof.
  unfold perm_b, permissible, consonant_letter, voiced_letter, unvoiced_letter. cbv zeta.
  rewrite !andb_true_iff, !negb_true_iff, !memb_In, N.eqb_neq.
  rewrite <- !not_true_iff_false, !andb_true_iff, !memb_In, lmemb_In. tauto.
Qed.

Definition initial_b (x y : char) : bool := lmemb [lower x; lower y] INITIAL_PAIRS.
Lemma initial_b_spec x y : initial_b x y = true <-> initial_pair x y.
Proof. apply lmemb_In. Qed.

(** * What a consonant rule excludes *)
Fixpoint fires (n : nat) (e : pexp nt) (y : nt) : bool :=
  match n with
  | O => false
  | S n => match e with
           | Call x => nt_eqb x y || fires n (rule x) y
           | Or es => existsb (fun e => fires n e y) es
           | _ => false
           end
  end.

Lemma fires_sound n : forall e y u, fires n e y = true -> wfe e = true -> accepts y u = true -> exists r, ev e u = Some r.
Proof.
  induction n as [|n IH]; intros e y u; [discriminate|]. cbn [fires]. intros H Hw Hy.
  destruct e as [chs| | |e|e|es|es|e es|m e|e q|e q|q e|x]; try discriminate.
  - rewrite ev_Or by exact Hw. apply wfe_inv in Hw. induction es as [|e es IHes]; [discriminate|].
    cbn [existsb] in H. cbn [forallb] in Hw. apply andb_true_iff in Hw as [He Hes]. cbn [evor].
    destruct (ev e u) as [r|] eqn:E; [exists r; reflexivity|]. apply orb_true_iff in H as [H|H].
    + destruct (IH e y u H He Hy) as (r & Hr). congruence.
    + apply IHes; assumption.
  - apply orb_true_iff in H as [H|H].
    + apply nt_eqb_eq in H. subst x. unfold accepts in Hy. destruct (ev (Call y) u) as [r|]; [exists r; reflexivity|discriminate].
    + rewrite ev_Call. apply (IH _ y u H (wfe_rule x) Hy).
Qed.

Lemma cons_excludes x y c u : is_cons_nt x = true -> is_comma c = false -> fires 5 (cons_not x) y = true ->
  accepts x (c :: u) = true -> accepts y u = false.
Proof.
  intros Hx Hc Hf H. destruct (accepts y u) eqn:Ey; [|reflexivity]. exfalso.
  destruct (cons_rule x Hx) as (_ & Hw & _). destruct (fires_sound 5 _ y u Hf Hw Ey) as (r & Hr).
  unfold accepts in H. rewrite ev_cons in H by exact Hx. cbn [next_char] in H. rewrite Hc, Hr in H.
  destruct (mem_char c (cons_chars x)); discriminate.
Qed.

Lemma next_char_comma a u : Forall (fun c => is_comma c = true) a -> next_char (a ++ u) = next_char u.
Proof. induction 1 as [|c a Hc Ha IH]; [reflexivity|]. cbn [app next_char]. rewrite Hc. exact IH. Qed.

Lemma ev_cons_commas x a u : is_cons_nt x = true -> Forall (fun c => is_comma c = true) a ->
  ev (Call x) (a ++ u) = ev (Call x) u.
Proof. intros Hx Ha. rewrite !ev_cons by exact Hx. rewrite next_char_comma by exact Ha. reflexivity. Qed.

(** the letters of a text and the text *)
Lemma letters_split t a c b : letters t = a ++ c :: b -> exists a' b', t = a' ++ c :: b' /\ letters a' = a /\ letters b' = b /\ is_comma c = false.
Proof.
  revert a. induction t as [|d t IH]; intros a H; [destruct a; discriminate|].
  unfold letters in H. cbn [filter] in H. destruct (d =? 44) eqn:E; cbn [negb] in H.
  - destruct (IH a H) as (a' & b' & -> & <- & <- & Hc). exists (d :: a'), b'. split; [reflexivity|]. split; [|auto].
    unfold letters. cbn [filter]. rewrite E. reflexivity.
  - destruct a as [|a0 a].
    + injection H as -> H. exists [], t. repeat split; auto.
    + injection H as -> H. destruct (IH a H) as (a' & b' & -> & <- & <- & Hc). exists (a0 :: a'), b'. split; [reflexivity|]. split; [|auto].
      unfold letters. cbn [filter]. rewrite E. reflexivity.
Qed.

Lemma letters_head t c b : letters t = c :: b -> exists a' b', t = a' ++ c :: b' /\ Forall (fun c => is_comma c = true) a' /\ letters b' = b /\ is_comma c = false.
Proof.
  intros H. destruct (letters_split t [] c b H) as (a' & b' & -> & Ha & Hb & Hc). exists a', b'. repeat split; auto.
  apply Forall_forall. intros d Hd. destruct (is_comma d) eqn:E; [reflexivity|]. exfalso.
  assert (K : In d (letters a')) by (unfold letters; apply filter_In; split; [exact Hd|]; rewrite <- is_comma_eqb, E; reflexivity).
  rewrite Ha in K. exact K.
Qed.

Definition pairs_ok : bool :=
  forallb (fun '(c, x) => forallb (fun '(d, y) => fires 5 (cons_not x) y || perm_b c d) LETTERS) LETTERS.
Lemma pairs_ok_true : pairs_ok = true.
Proof. vm_compute. reflexivity. Qed.

Lemma assoc_in c l x : assoc c l = Some x -> In (c, x) l.
Proof.
  induction l as [|[d y] l IH]; cbn [assoc]; [discriminate|]. destruct (N.eqb_spec c d) as [->|].
  - intros [= <-]. left; reflexivity.
  - intros H. right. auto.
Qed.

Section Own.
Context (t : list char) (Ht : own t []).

Lemma own_at a c b x : t = a ++ c :: b -> cons_nt c = Some x -> accepts x (c :: b) = true.
Proof. intros E Hc. pose proof (Ht a c b x E Hc) as H. rewrite app_nil_r in H. exact H. Qed.

Lemma own_pairs a x y b : letters t = a ++ x :: y :: b -> consonant_letter x -> consonant_letter y -> permissible x y.
Proof.
  intros E Hx Hy. destruct (letters_split t a x (y :: b) E) as (a' & b' & Et & _ & Hb & Hcx).
  destruct (letters_head b' y b Hb) as (g & b'' & -> & Hg & _ & Hcy).
  apply consonant_CONS, cons_nt_CONS in Hx as (nx & Hx). apply consonant_CONS, cons_nt_CONS in Hy as (ny & Hy).
  pose proof (own_at a' x _ nx Et Hx) as Ax.
  pose proof (own_at (a' ++ x :: g) y b'' ny) as Ay. rewrite Et, <- app_assoc in Ay. specialize (Ay eq_refl Hy).
  pose proof pairs_ok_true as P. unfold pairs_ok in P. rewrite forallb_forall in P. specialize (P _ (assoc_in _ _ _ Hx)).
  cbv beta iota in P. rewrite forallb_forall in P. specialize (P _ (assoc_in _ _ _ Hy)). cbv beta iota in P.
  apply orb_true_iff in P as [P|P]; [|apply perm_b_spec, P]. exfalso.
  pose proof (cons_excludes nx ny x _ (cons_nt_is _ _ Hx) Hcx P Ax) as F.
  unfold accepts in F, Ay. rewrite ev_cons_commas in F by (eauto using cons_nt_is).
  rewrite F in Ay. discriminate.
Qed.

Lemma own_triples a x y z b : letters t = a ++ x :: y :: z :: b -> ~ forbidden_triple x y z.
Proof.
  intros E HF.
  assert (Hc : consonant_letter x /\ consonant_letter y /\ consonant_letter z).
  { unfold consonant_letter. cbn in HF. repeat (destruct HF as [HF|HF]; [injection HF as <- <- <-; cbn; tauto|]). destruct HF. }
  destruct Hc as (Hx & Hy & Hz).
  destruct (letters_split t a x (y :: z :: b) E) as (a' & b' & Et & _ & Hb & Hcx).
  destruct (letters_head b' y (z :: b) Hb) as (g & b'' & -> & Hg & Hb' & Hcy).
  destruct (letters_head b'' z b Hb') as (g' & b3 & -> & Hg' & _ & Hcz).
  apply consonant_CONS, cons_nt_CONS in Hx as (nx & Hx). apply consonant_CONS, cons_nt_CONS in Hy as (ny & Hy).
  apply consonant_CONS, cons_nt_CONS in Hz as (nz & Hz).
  pose proof (own_at a' x _ nx Et Hx) as Ax.
  pose proof (own_at (a' ++ x :: g) y (g' ++ z :: b3) ny) as Ay. rewrite Et, <- app_assoc in Ay. specialize (Ay eq_refl Hy).
  pose proof (own_at (a' ++ x :: g ++ y :: g') z b3 nz) as Az.
  rewrite Et in Az. repeat (rewrite <- app_assoc in Az; cbn [app] in Az). specialize (Az eq_refl Hz).
  assert (Haff : exists r, ev (Call N_affricate) (g ++ y :: g' ++ z :: b3) = Some r).
  { assert (Ey : ev (Call ny) (g ++ y :: g' ++ z :: b3) = Some (g' ++ z :: b3)).
    { rewrite ev_cons_commas by (eauto using cons_nt_is). unfold accepts in Ay. rewrite ev_cons in * by (eauto using cons_nt_is).
      cbn [next_char] in *. rewrite Hcy in *. destruct (mem_char y (cons_chars ny)); [|discriminate].
      destruct (ev (cons_not ny) _); [discriminate|reflexivity]. }
    assert (Ez : exists r, ev (Call nz) (g' ++ z :: b3) = Some r).
    { rewrite ev_cons_commas by (eauto using cons_nt_is). unfold accepts in Az. destruct (ev (Call nz) (z :: b3)) as [r|]; [eauto|discriminate]. }
    destruct Ez as (r & Ez). rewrite ev_Call. change (rule N_affricate) with or![seq![N_t; or![N_c; N_s]]; seq![N_d; or![N_j; N_z]]].
    unfold CallC. rewrite ev_Or by reflexivity. cbn [evor]. rewrite !ev_Seq by reflexivity. cbn [evs].
    unfold forbidden_triple in HF. cbn [In lit] in HF.
    assert (Hyz : (ny = N_t /\ (nz = N_c \/ nz = N_s)) \/ (ny = N_d /\ (nz = N_j \/ nz = N_z))).
    { pose proof (assoc_in _ _ _ Hy) as Iy. pose proof (assoc_in _ _ _ Hz) as Iz.
      assert (K : forallb (fun '(c, x) => forallb (fun '(d, y) =>
                   negb (lmemb [lower c; lower d] [lit "dj"; lit "dz"; lit "tc"; lit "ts"]) ||
                   (nt_eqb x N_t && (nt_eqb y N_c || nt_eqb y N_s)) || (nt_eqb x N_d && (nt_eqb y N_j || nt_eqb y N_z))) LETTERS) LETTERS = true)
        by (vm_compute; reflexivity).
      rewrite forallb_forall in K. specialize (K _ Iy). cbv beta iota in K. rewrite forallb_forall in K. specialize (K _ Iz). cbv beta iota in K.
      assert (M : lmemb [lower y; lower z] [lit "dj"; lit "dz"; lit "tc"; lit "ts"] = true).
      { apply lmemb_In. repeat (destruct HF as [HF|HF]; [injection HF as _ <- <-; cbn; tauto|]). destruct HF. }
      rewrite M in K. cbn [negb orb] in K. apply orb_true_iff in K as [K|K]; apply andb_true_iff in K as [K1 K2];
        apply orb_true_iff in K2; rewrite ?orb_true_iff in K2; destruct K2 as [K2|K2]; apply nt_eqb_eq in K1; apply nt_eqb_eq in K2; subst; auto. }
    destruct Hyz as [[-> Hyz]|[-> Hyz]].
    - rewrite Ey. rewrite ev_Or by reflexivity. cbn [evor]. destruct Hyz as [-> | ->]; rewrite Ez; [eauto|].
      destruct (ev (Call N_c) _); eauto.
    - destruct (match ev (Call N_t) _ with Some r0 => _ | None => _ end) as [r1|]; [eauto|].
      rewrite Ey. rewrite ev_Or by reflexivity. cbn [evor]. destruct Hyz as [-> | ->]; rewrite Ez; [eauto|].
      destruct (ev (Call N_j) _); eauto. }
  destruct Haff as (r & Haff).
  assert (Hnx : nx = N_n).
  { pose proof (assoc_in _ _ _ Hx) as Ix.
    assert (K : forallb (fun '(c, x) => negb (lower c =? 110) || nt_eqb x N_n) LETTERS = true) by (vm_compute; reflexivity).
    rewrite forallb_forall in K. specialize (K _ Ix). cbv beta iota in K.
    assert (M : lower x = 110) by (cbn in HF; repeat (destruct HF as [HF|HF]; [injection HF as <- _ _; reflexivity|]); destruct HF).
    rewrite M in K. cbn in K. apply nt_eqb_eq, K. }
  subst nx.
  pose proof (cons_excludes N_n N_affricate x _ eq_refl Hcx eq_refl Ax) as F.
  unfold accepts in F. rewrite Haff in F. discriminate.
Qed.
End Own.

Lemma accepts_all_own x t : accepts_all x t = true -> own t [].
Proof.
  unfold accepts_all. destruct (ev (Call x) t) as [[|c r]|] eqn:E; try discriminate. intros _.
  destruct (ev_own x t [] E) as (m & Em & Hm). rewrite app_nil_r in Em. subst m. exact Hm.
Qed.

(** MorphFacts.v -- two analyses of what the rules of rules.rs consume, for all
    texts: the finite sets of letter classes of rules without repetition
    ([shapes]), and the fact that each consonant of a matched text is matched by
    its own rule at its own place ([own]). *)
From Verif Require Import Base Peg Rules RulesApi PegMeta RulesTotal PegChars PegSim SymPeg SpecText.
From Coq Require Import Lia Arith.

(** * Shapes *)
Fixpoint padd (p : pat) (l : list pat) : list pat :=
  match l with
  | [] => [p]
  | q :: l' => match pat_join q p with Some r => r :: l' | None => q :: padd p l' end
  end.
Definition pmerge (l : list pat) : list pat := fold_left (fun acc p => padd p acc) l [].

Definition cross (ps qs : list pat) : list pat := flat_map (fun p => map (app p) qs) ps.

Fixpoint shapes (n : nat) (e : pexp nt) : option (list pat) :=
  match n with
  | O => None
  | S n =>
      match e with
      | One chs => Some [[chs]]
      | Eof | Null | Not _ | Peek _ => Some [[]]
      | Or es | Longest es => option_map pmerge (collect (shapes n) es)
      | Seq e es =>
          (fix go (es : list (pexp nt)) : option (list pat) :=
             match es with
             | [] => Some [[]]
             | a :: es' => match shapes n a, go es' with
                           | Some x, Some y => Some (pmerge (cross x y))
                           | _, _ => None
                           end
             end) (e :: es)
      | Repeat _ _ => None
      | AndPeek a _ | AndNot a _ => shapes n a
      | NotThen _ a => shapes n a
      | Call x => shapes n (rule x)
      end
  end.

Definition has (p : pat) (u : list char) : Prop := Forall2 (fun K c => In c K /\ is_comma c = false) p u.

Lemma padd_spec p l u : (has p u \/ exists q, In q l /\ has q u) -> exists q, In q (padd p l) /\ has q u.
Proof.
  induction l as [|q l IH]; cbn [padd]; intros H.
  - destruct H as [H|(q & [] & _)]. exists p. split; [left; reflexivity|exact H].
  - destruct (pat_join q p) as [r|] eqn:E.
    + destruct H as [H|(q' & [<-|Hq] & H)].
      * exists r. split; [left; reflexivity|]. eapply pat_join_spec; [exact E|right; exact H].
      * exists r. split; [left; reflexivity|]. eapply pat_join_spec; [exact E|left; exact H].
      * exists q'. split; [right; exact Hq|exact H].
    + destruct H as [H|(q' & [<-|Hq] & H)].
      * destruct (IH (or_introl H)) as (x & Hx & Hu). exists x. split; [right; exact Hx|exact Hu].
      * exists q. split; [left; reflexivity|exact H].
      * destruct (IH (or_intror (ex_intro _ q' (conj Hq H)))) as (x & Hx & Hu). exists x. split; [right; exact Hx|exact Hu].
Qed.

Lemma pmerge_spec l u : (exists q, In q l /\ has q u) -> exists q, In q (pmerge l) /\ has q u.
Proof.
  unfold pmerge. intros H.
  enough (G : forall l acc, (exists q, In q (l ++ acc) /\ has q u) -> exists q, In q (fold_left (fun acc p => padd p acc) l acc) /\ has q u).
  { apply G. rewrite app_nil_r. exact H. }
  clear l H. induction l as [|p l IH]; intros acc (q & Hq & Hu); cbn [fold_left]; [exists q; auto|]. apply IH.
  cbn [app In] in Hq. destruct Hq as [<-|Hq].
  - destruct (padd_spec p acc u (or_introl Hu)) as (x & Hx & Hx'). exists x. split; [apply in_or_app; right; exact Hx|exact Hx'].
  - apply in_app_or in Hq as [Hq|Hq]; [exists q; split; [apply in_or_app; left; exact Hq|exact Hu]|].
    destruct (padd_spec p acc u (or_intror (ex_intro _ q (conj Hq Hu)))) as (x & Hx & Hx').
    exists x. split; [apply in_or_app; right; exact Hx|exact Hx'].
Qed.

Lemma letters_app a b : letters (a ++ b) = letters a ++ letters b.
Proof. apply filter_app. Qed.

Lemma letters_commas m : Forall (fun c => is_comma c = true) m -> letters m = [].
Proof.
  induction 1 as [|c m Hc Hm IH]; [reflexivity|]. unfold letters in *. cbn [filter]. unfold is_comma, COMMA in Hc. rewrite Hc. exact IH.
Qed.

Lemma next_char_split t c r : next_char t = Some (c, r) -> exists m, t = m ++ c :: r /\ letters m = [] /\ is_comma c = false.
Proof.
  intros H. apply next_char_suffix in H as (m & -> & Hm & Hc).
  exists m. split; [reflexivity|]. split; [|exact Hc]. apply letters_commas. exact Hm.
Qed.

Lemma letters_one c : is_comma c = false -> letters [c] = [c].
Proof. intros H. unfold letters, is_comma, COMMA in *. cbn [filter]. rewrite H. reflexivity. Qed.

Definition eaten (ps : list pat) (t r : list char) : Prop :=
  exists m, t = m ++ r /\ exists p, In p ps /\ has p (letters m).

Lemma eaten_nil t : eaten [[]] t t.
Proof. exists []. split; [reflexivity|]. exists []. split; [left; reflexivity|constructor]. Qed.

Lemma eaten_incl ps qs t r : incl ps qs -> eaten ps t r -> eaten qs t r.
Proof. intros H (m & E & p & Hp & Hh). exists m. split; [exact E|]. exists p. split; [apply H, Hp|exact Hh]. Qed.

Lemma eaten_merge ps t r : eaten ps t r -> eaten (pmerge ps) t r.
Proof.
  intros (m & E & p & Hp & Hh). exists m. split; [exact E|]. apply pmerge_spec. exists p. auto.
Qed.

Lemma eaten_cross ps qs a b c : eaten ps a b -> eaten qs b c -> eaten (cross ps qs) a c.
Proof.
  intros (m & -> & p & Hp & Hh) (m' & -> & q & Hq & Hg). exists (m ++ m'). split; [rewrite app_assoc; reflexivity|].
  exists (p ++ q). split.
  - unfold cross. apply in_flat_map. exists p. split; [exact Hp|]. apply in_map_iff. exists q. auto.
  - rewrite letters_app. apply Forall2_app; assumption.
Qed.

Lemma evor_in es t r : evor es t = Some r -> exists e, In e es /\ ev e t = Some r.
Proof.
  induction es as [|e es IH]; cbn [evor]; [discriminate|]. destruct (ev e t) as [r'|] eqn:E.
  - intros [= <-]. exists e. split; [left; reflexivity|exact E].
  - intros H. destruct (IH H) as (x & Hx & Hr). exists x. split; [right; exact Hx|exact Hr].
Qed.
Lemma evlong_in es t : forall best r, evlong es t best = Some r -> best = Some r \/ exists e, In e es /\ ev e t = Some r.
Proof.
  induction es as [|e es IH]; intros best r; cbn [evlong]; [auto|]. destruct (ev e t) as [r'|] eqn:E.
  - assert (G : forall b, evlong es t b = Some r -> b = best \/ b = Some r' -> best = Some r \/ exists e0, In e0 (e :: es) /\ ev e0 t = Some r).
    { intros b H Hb. destruct (IH _ _ H) as [->|(x & Hx & Hr)].
      - destruct Hb as [Hb|Hb]; [left; auto|]. right. injection Hb as <-. exists e. split; [left; reflexivity|exact E].
      - right. exists x. split; [right; exact Hx|exact Hr]. }
    destruct best as [b|]; [destruct (_ <? _)|]; intros H; eapply G; eauto.
  - intros H. destruct (IH _ _ H) as [K|(x & Hx & Hr)]; [auto|]. right. exists x. split; [right; exact Hx|exact Hr].
Qed.

Lemma forallb_in {A} (f : A -> bool) l a : forallb f l = true -> In a l -> f a = true.
Proof. rewrite forallb_forall. auto. Qed.

Lemma shapes_sound n : forall e ps t r, shapes n e = Some ps -> wfe e = true -> ev e t = Some r -> eaten ps t r.
Proof.
  induction n as [|n IH]; intros e ps t r; [discriminate|]. intros H Hw. pose proof (wfe_inv e Hw) as Hi.
  assert (Halt : forall es ps, forallb wfe es = true -> option_map pmerge (collect (shapes n) es) = Some ps ->
            (exists e, In e es /\ ev e t = Some r) -> eaten ps t r).
  { intros es qs Hes Hc (a & Ha & Hr). destruct (collect (shapes n) es) as [l|] eqn:El; [|discriminate]. injection Hc as <-.
    destruct (collect_some _ _ _ _ El Ha) as (x & Hx & Hincl).
    apply eaten_merge. eapply eaten_incl; [exact Hincl|]. eapply IH; [exact Hx|eapply forallb_in; eassumption|exact Hr]. }
  destruct e as [chs| | |e|e|es|es|e es|m e|e q|e q|q e|x]; cbn [shapes] in H.
  - injection H as <-. rewrite ev_One. destruct (next_char t) as [[c u]|] eqn:E; [|discriminate].
    destruct (mem_char c chs) eqn:Ec; [|discriminate]. intros [= <-].
    apply next_char_split in E as (m & -> & Hm & Hc). exists (m ++ [c]). split; [rewrite <- app_assoc; reflexivity|].
    exists [chs]. split; [left; reflexivity|]. rewrite letters_app, Hm, letters_one by exact Hc. cbn [app].
    constructor; [|constructor]. split; [apply mem_char_In, Ec|exact Hc].
  - injection H as <-. rewrite ev_Eof. destruct t; [|discriminate]. intros [= <-]. apply eaten_nil.
  - injection H as <-. rewrite ev_Null. intros [= <-]. apply eaten_nil.
  - injection H as <-. rewrite ev_Not by exact Hw. destruct (ev e t); [discriminate|]. intros [= <-]. apply eaten_nil.
  - injection H as <-. rewrite ev_Peek by exact Hw. destruct (ev e t); [|discriminate]. intros [= <-]. apply eaten_nil.
  - rewrite ev_Or by exact Hw. intros Hr. eapply Halt; [exact Hi|exact H|]. apply evor_in, Hr.
  - rewrite ev_Longest by exact Hw. intros Hr. eapply Halt; [exact Hi|exact H|].
    apply evlong_in in Hr as [Hr|Hr]; [discriminate|exact Hr].
  - rewrite ev_Seq by exact Hw. destruct Hi as [He Hes]. intros Hr.
    assert (Hr' : evs (e :: es) t = Some r) by exact Hr.
    assert (Hw' : forallb wfe (e :: es) = true) by (cbn [forallb]; rewrite He, Hes; reflexivity).
    change ((fix go (es : list (pexp nt)) : option (list pat) :=
             match es with
             | [] => Some [[]]
             | a :: es' => match shapes n a, go es' with
                           | Some x, Some y => Some (pmerge (cross x y))
                           | _, _ => None
                           end
             end) (e :: es) = Some ps) in H.
    remember (e :: es) as l eqn:El. clear El Hr He Hes Hw e es Halt. revert ps t H Hr'.
    induction l as [|a l IHl]; intros ps t H Hr; cbn [evs] in *.
    + injection H as <-. injection Hr as <-. apply eaten_nil.
    + cbn [forallb] in Hw'. apply andb_true_iff in Hw' as [Ha Hl].
      destruct (shapes n a) as [x|] eqn:Ex; [|discriminate].
      destruct ((fix go (es : list (pexp nt)) : option (list pat) :=
             match es with
             | [] => Some [[]]
             | a :: es' => match shapes n a, go es' with
                           | Some x, Some y => Some (pmerge (cross x y))
                           | _, _ => None
                           end
             end) l) as [y|] eqn:Ey; [|discriminate]. injection H as <-.
      destruct (ev a t) as [r1|] eqn:Er1; [|discriminate].
      apply eaten_merge. eapply eaten_cross; [eapply IH; eassumption|]. apply IHl; auto.
  - discriminate.
  - rewrite ev_AndPeek by exact Hw. destruct Hi as [He Hq]. destruct (ev e t) as [r1|] eqn:E; [|discriminate].
    destruct (ev q r1); [|discriminate]. intros [= <-]. eapply IH; eassumption.
  - rewrite ev_AndNot by exact Hw. destruct Hi as [He Hq]. destruct (ev e t) as [r1|] eqn:E; [|discriminate].
    destruct (ev q r1); [discriminate|]. intros [= <-]. eapply IH; eassumption.
  - rewrite ev_NotThen by exact Hw. destruct Hi as [Hq He]. destruct (ev q t); [discriminate|]. intros Hr. eapply IH; eassumption.
  - rewrite ev_Call. intros Hr. eapply IH; [exact H|apply wfe_rule|exact Hr].
Qed.


(** * A relation between a text and what is left of it after a match *)
Section Rel.
Context (R : list char -> list char -> Prop) (Hrefl : forall t, R t t) (Htrans : forall a b c, R a b -> R b c -> R a c)
  (leaf : list char -> bool)
  (Hleaf : forall chs t c r, leaf chs = true -> next_char t = Some (c, r) -> mem_char c chs = true -> R t r)
  (special : nt -> bool) (Hspec : forall x t r, special x = true -> ev (Call x) t = Some r -> R t r).

Fixpoint rel_ok (e : pexp nt) : bool :=
  match e with
  | One chs => leaf chs
  | Eof | Null | Not _ | Peek _ | Call _ => true
  | Or es | Longest es => forallb rel_ok es
  | Seq a es => rel_ok a && forallb rel_ok es
  | Repeat _ a => rel_ok a
  | AndPeek a _ | AndNot a _ => rel_ok a
  | NotThen _ a => rel_ok a
  end.
Context (Hrules : forall x, special x = false -> rel_ok (rule x) = true).

Lemma prun_rel n : forall e t r, rel_ok e = true -> wfe e = true -> prun rule n e t = POk r -> R t r.
Proof.
  induction n as [|n IH]; intros e t r He Hw; [discriminate|]. pose proof (wfe_inv e Hw) as Hi.
  assert (Hseq : forall es t r, forallb rel_ok es = true -> forallb wfe es = true -> pseq (prun rule n) es t = POk r -> R t r).
  { induction es as [|a es IHes]; intros t0 r0 H Hw0; cbn [pseq].
    - intros [= <-]. apply Hrefl.
    - cbn [forallb] in H, Hw0. apply andb_true_iff in H as [Ha Hes]. apply andb_true_iff in Hw0 as [Ha' Hes'].
      destruct (prun rule n a t0) eqn:E; try discriminate. intros H.
      eapply Htrans; [eapply IH; eassumption|eapply IHes; eassumption]. }
  destruct e as [chs| | |e|e|es|es|e es|min e|e p|e p|p e|x]; cbn [rel_ok] in He; cbn [prun].
  - destruct (next_char t) as [[c u]|] eqn:E; [|discriminate].
    destruct (mem_char c chs) eqn:Ec; [|discriminate]. intros [= <-]. eapply Hleaf; eassumption.
  - destruct t; [|discriminate]. intros [= <-]. apply Hrefl.
  - intros [= <-]. apply Hrefl.
  - destruct (prun rule n e t); try discriminate. intros [= <-]. apply Hrefl.
  - destruct (prun rule n e t); try discriminate. intros [= <-]. apply Hrefl.
  - clear Hw. induction es as [|a es IHes]; cbn [por]; [discriminate|].
    cbn [forallb] in He, Hi. apply andb_true_iff in He as [Ha Hes]. apply andb_true_iff in Hi as [Ha' Hes'].
    destruct (prun rule n a t) as [| |r'] eqn:E; [discriminate|auto|].
    intros [= <-]. eapply IH; eassumption.
  - assert (HL : forall b, (forall r0, b = Some r0 -> R t r0) ->
                           plongest (prun rule n) es t b = POk r -> R t r).
    2: { intros H. eapply HL; [|exact H]. discriminate. }
    clear Hw. revert He Hi. induction es as [|a es IHes]; intros He Hi b Hb; cbn [plongest].
    + destruct b; [|discriminate]. intros [= <-]. auto.
    + cbn [forallb] in He, Hi. apply andb_true_iff in He as [Ha Hes]. apply andb_true_iff in Hi as [Ha' Hes'].
      destruct (prun rule n a t) as [| |r'] eqn:E; [discriminate|apply IHes; assumption|].
      assert (Hr' : R t r') by (eapply IH; eassumption).
      destruct b as [r0|]; [destruct (_ <? _)|]; (apply IHes; [exact Hes|exact Hes'|]); auto;
        intros ? [= <-]; exact Hr'.
  - apply andb_true_iff in He as [He Hes]. destruct Hi as [Hi1 Hi2].
    destruct (prun rule n e t) as [| |r'] eqn:E; [discriminate|discriminate|].
    intros H. eapply Htrans; [eapply IH; eassumption|eapply Hseq; eassumption].
  - destruct Hi as [_ Hi]. clear Hw. generalize 0%nat as num. generalize (S (List.length t)) as k. intros k. revert t r.
    induction k as [|k IHk]; intros t r num; cbn [prep]; [discriminate|].
    destruct (prun rule n e t) as [| |r'] eqn:E; [discriminate| |].
    + destruct (Nat.ltb num min); [discriminate|]. intros [= <-]. apply Hrefl.
    + intros H. eapply Htrans; [eapply IH; eassumption|eapply IHk; eassumption].
  - destruct (prun rule n e t) as [| |r'] eqn:E; [discriminate|discriminate|]. destruct Hi as [Hi1 Hi2].
    destruct (prun rule n p r'); try discriminate. intros [= <-]. eapply IH; eassumption.
  - destruct (prun rule n e t) as [| |r'] eqn:E; [discriminate|discriminate|]. destruct Hi as [Hi1 Hi2].
    destruct (prun rule n p r'); try discriminate. intros [= <-]. eapply IH; eassumption.
  - destruct (prun rule n p t); try discriminate. destruct Hi as [Hi1 Hi2]. intros H. eapply IH; eassumption.
  - intros H. destruct (special x) eqn:Es.
    + apply (Hspec x t r Es). assert (H' : prun rule (S n) (Call x) t = POk r) by exact H.
      rewrite <- (ev_any (S n)); [rewrite H'; reflexivity|apply wfe_call|rewrite H'; discriminate].
    + eapply IH; [apply Hrules, Es|apply wfe_rule|exact H].
Qed.

Lemma ev_rel e t r : rel_ok e = true -> wfe e = true -> ev e t = Some r -> R t r.
Proof.
  intros He Hw. unfold ev. destruct (prun rule (rules_fuel t) e t) eqn:E; try discriminate. intros [= <-].
  eapply prun_rel; eassumption.
Qed.
Lemma ev_rel_call x t r : ev (Call x) t = Some r -> R t r.
Proof. intros H. eapply ev_rel; [|apply wfe_call|exact H]. reflexivity. Qed.
End Rel.

(** * Each consonant is matched by its own rule *)
Definition LETTERS : list (char * nt) :=
  combine (lit "bcdfgjklmnprstvxzBCDFGJKLMNPRSTVXZ")
    (let l := [N_b; N_c; N_d; N_f; N_g; N_j; N_k; N_l; N_m; N_n; N_p; N_r; N_s; N_t; N_v; N_x; N_z] in l ++ l).

Fixpoint assoc (c : char) (l : list (char * nt)) : option nt :=
  match l with [] => None | (d, x) :: l' => if c =? d then Some x else assoc c l' end.
Definition cons_nt (c : char) : option nt := assoc c LETTERS.
Definition is_cons_nt (x : nt) : bool := existsb (fun d => nt_eqb (snd d) x) LETTERS.

Definition own (m r : list char) : Prop :=
  forall a c b x, m = a ++ c :: b -> cons_nt c = Some x -> accepts x (c :: b ++ r) = true.

Lemma own_nil r : own [] r.
Proof. intros a c b x E. destruct a; discriminate. Qed.

Lemma own_app m1 m2 r : own m1 (m2 ++ r) -> own m2 r -> own (m1 ++ m2) r.
Proof.
  intros H1 H2 a c b x E Hc. apply app_eq_app in E as (l & [[E1 E2]|[E1 E2]]).
  - destruct l as [|d l].
    + cbn in E2. subst m2. apply (H2 [] c b x eq_refl Hc).
    + cbn in E2. injection E2 as <- ->. rewrite <- app_assoc. apply (H1 a c l x E1 Hc).
  - apply (H2 l c b x E2 Hc).
Qed.

Definition no_cons (chs : list char) : bool :=
  forallb (fun c => match cons_nt c with None => true | Some _ => false end) chs.

Lemma rules_cons_free x : is_cons_nt x = false -> rel_ok no_cons (rule x) = true.
Proof. destruct x; vm_compute; intros; try reflexivity; discriminate. Qed.

(** A consonant rule looks only at the next letter and what follows it. *)
Definition cons_chars (x : nt) : list char :=
  match rule x with AndNot (One chs) _ => chs | _ => [] end.
Definition cons_not (x : nt) : pexp nt := match rule x with AndNot _ q => q | _ => Null end.

Lemma cons_rule x : is_cons_nt x = true -> rule x = AndNot (One (cons_chars x)) (cons_not x) /\ wfe (cons_not x) = true /\ forallb (fun c => match cons_nt c with Some y => nt_eqb x y | None => false end) (cons_chars x) = true.
Proof. destruct x; vm_compute; intros H; try discriminate; repeat split; reflexivity. Qed.

Lemma nt_idx_inj x y : nt_idx x = nt_idx y -> x = y.
Proof.
  enough (H : forall x, nth_error all_nt (nt_idx x) = Some x).
  { intros E. pose proof (H x) as Hx. rewrite E, H in Hx. congruence. }
  intros z. destruct z; reflexivity.
Qed.
Lemma nt_eqb_eq x y : nt_eqb x y = true -> x = y.
Proof. unfold nt_eqb. intros H. apply Nat.eqb_eq in H. apply nt_idx_inj, H. Qed.
Lemma nt_eqb_refl x : nt_eqb x x = true.
Proof. apply Nat.eqb_refl. Qed.

Lemma ev_cons x t : is_cons_nt x = true -> ev (Call x) t =
  match next_char t with
  | Some (c, r) => if mem_char c (cons_chars x) then match ev (cons_not x) r with Some _ => None | None => Some r end else None
  | None => None
  end.
Proof.
  intros H. destruct (cons_rule x H) as (E & Hw & _). rewrite ev_Call. pose proof (wfe_rule x) as Hr. rewrite E in *.
  rewrite ev_AndNot by exact Hr. rewrite ev_One. destruct (next_char t) as [[c r]|]; [|reflexivity].
  destruct (mem_char c (cons_chars x)); reflexivity.
Qed.

Lemma cons_nt_is c x : cons_nt c = Some x -> is_cons_nt x = true.
Proof.
  unfold cons_nt, is_cons_nt. generalize LETTERS. induction l as [|[d y] l IH]; cbn [assoc]; [discriminate|].
  destruct (c =? d); [intros [= <-]|]; cbn [existsb snd]; [rewrite nt_eqb_refl; reflexivity|].
  intros H. rewrite IH by exact H. apply orb_true_r.
Qed.

Lemma ev_cons_own x t r : is_cons_nt x = true -> ev (Call x) t = Some r -> exists m, t = m ++ r /\ own m r.
Proof.
  intros Hx H. pose proof H as H0. rewrite ev_cons in H by exact Hx.
  destruct (next_char t) as [[c u]|] eqn:En; [|discriminate]. destruct (mem_char c (cons_chars x)) eqn:Ec; [|discriminate].
  destruct (ev (cons_not x) u) eqn:Ee; [discriminate|]. injection H as <-.
  pose proof (next_char_suffix _ _ _ En) as (m & -> & Hm & Hc). exists (m ++ [c]).
  split; [rewrite <- app_assoc; reflexivity|]. intros a d b y E Hd.
  assert (Ed : d = c /\ b = []).
  { destruct b as [|e b] using rev_ind; [apply app_inj_tail in E as [_ ->]; auto|]. exfalso. clear IHb.
    rewrite app_comm_cons, app_assoc in E. apply app_inj_tail in E as [E _]. rewrite Forall_forall in Hm.
    assert (Hin : In d m) by (rewrite E; apply in_or_app; right; left; reflexivity). specialize (Hm d Hin).
    unfold is_comma, COMMA in Hm. apply N.eqb_eq in Hm. subst d. discriminate. }
  destruct Ed as [-> ->]. cbn [app].
  destruct (cons_rule x Hx) as (_ & _ & Hall). apply mem_char_In in Ec. pose proof (forallb_in _ _ _ Hall Ec) as Hcy.
  cbv beta in Hcy. rewrite Hd in Hcy. apply nt_eqb_eq in Hcy. subst y.
  unfold accepts. rewrite ev_cons by exact Hx. cbn [next_char]. rewrite Hc. apply mem_char_In in Ec. rewrite Ec, Ee. reflexivity.
Qed.

Definition okown (t r : list char) : Prop := exists m, t = m ++ r /\ own m r.
Lemma okown_refl t : okown t t.
Proof. exists []. split; [reflexivity|apply own_nil]. Qed.
Lemma okown_trans a b c : okown a b -> okown b c -> okown a c.
Proof.
  intros (m & -> & H1) (m' & -> & H2). exists (m ++ m'). split; [rewrite app_assoc; reflexivity|]. apply own_app; assumption.
Qed.


Lemma ev_own x t r : ev (Call x) t = Some r -> okown t r.
Proof.
  apply (ev_rel_call okown okown_refl okown_trans no_cons) with (special := is_cons_nt).
  - intros chs u c v Hl Hn Hm. apply next_char_suffix in Hn as (m & -> & Hc & Hcc). exists (m ++ [c]).
    split; [rewrite <- app_assoc; reflexivity|]. intros a d b y E Hd. exfalso.
    assert (Hin : In d (m ++ [c])) by (rewrite E; apply in_or_app; right; left; reflexivity).
    apply in_app_or in Hin as [Hin|[<-|[]]].
    + rewrite Forall_forall in Hc. specialize (Hc d Hin). unfold is_comma, COMMA in Hc. apply N.eqb_eq in Hc. subst d. discriminate.
    + apply mem_char_In in Hm. pose proof (forallb_in _ _ _ Hl Hm) as H. cbv beta in H. rewrite Hd in H. discriminate.
  - intros y u v Hy Hv. exact (ev_cons_own y u v Hy Hv).
  - exact rules_cons_free.
Qed.

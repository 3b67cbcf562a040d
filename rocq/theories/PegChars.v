(** PegChars.v -- what a rule can consume: only chars from its [one_of] sets,
    and commas; a non-empty match ends with a non-comma. *)
From Verif Require Import Base Peg Rules RulesApi PegMeta RulesTotal.
From Coq Require Import Lia Arith.

Section Chars.
Context {nt : Type} (rule : nt -> pexp nt) (A : list char).

(** every [one_of] set of the expression is inside [A] *)
Fixpoint chars_in (e : pexp nt) : bool :=
  match e with
  | One chs => forallb (fun c => mem_char c A) chs
  | Eof | Null | Call _ => true
  | Not _ | Peek _ => true                       (* consume nothing *)
  | Or es | Longest es => forallb chars_in es
  | Seq e es => chars_in e && forallb chars_in es
  | Repeat _ e => chars_in e
  | AndPeek e _ | AndNot e _ | NotThen _ e => chars_in e
  end.

Definition eats (t r : list char) : Prop :=
  t = r \/ exists m c, t = m ++ c :: r /\ is_comma c = false /\ mem_char c A = true /\
                       Forall (fun x => is_comma x = true \/ mem_char x A = true) m.

Lemma eats_trans a b c : eats a b -> eats b c -> eats a c.
Proof.
  intros [->|(m & x & -> & Hx & HxA & Hm)] [->|(m' & y & -> & Hy & HyA & Hm')].
  - left; reflexivity.
  - right; exists m', y; auto.
  - right; exists m, x; auto.
  - right. exists (m ++ x :: m'), y. rewrite <- app_assoc. repeat split; auto.
    apply Forall_app; split; [exact Hm|]. constructor; [right; exact HxA|exact Hm'].
Qed.

Lemma mem_char_In c l : mem_char c l = true <-> In c l.
Proof.
  unfold mem_char. rewrite existsb_exists. split.
  - intros (x & Hx & E). apply N.eqb_eq in E. subst x. exact Hx.
  - intros H. exists c. split; [exact H|apply N.eqb_refl].
Qed.

Hypothesis HA : forall x, chars_in (rule x) = true.

Lemma prun_eats n : forall e t r, chars_in e = true -> prun rule n e t = POk r -> eats t r.
Proof.
  induction n as [|n IH]; intros e t r He; [discriminate|].
  assert (Hseq : forall es t r, forallb chars_in es = true -> pseq (prun rule n) es t = POk r -> eats t r).
  { induction es as [|a es IHes]; intros t0 r0 H; cbn [pseq].
    - intros [= <-]. left; reflexivity.
    - cbn [forallb] in H. apply andb_true_iff in H as [Ha Hes].
      destruct (prun rule n a t0) eqn:E; try discriminate. intros H.
      eapply eats_trans; [eapply IH; eassumption|eapply IHes; eassumption]. }
  destruct e as [chs| | |e|e|es|es|e es|min e|e p|e p|p e|x]; cbn [chars_in] in He; cbn [prun].
  - destruct (next_char t) as [[c u]|] eqn:E; [|discriminate].
    destruct (mem_char c chs) eqn:Ec; [|discriminate]. intros [= <-].
    apply next_char_suffix in E as (m & -> & Hm & Hc). right. exists m, c. repeat split; auto.
    + rewrite forallb_forall in He. apply He. apply mem_char_In. exact Ec.
    + eapply Forall_impl; [|exact Hm]. intros; left; assumption.
  - destruct t; [|discriminate]. intros [= <-]. left; reflexivity.
  - intros [= <-]. left; reflexivity.
  - destruct (prun rule n e t); try discriminate. intros [= <-]. left; reflexivity.
  - destruct (prun rule n e t); try discriminate. intros [= <-]. left; reflexivity.
  - induction es as [|a es IHes]; cbn [por]; [discriminate|].
    cbn [forallb] in He. apply andb_true_iff in He as [Ha Hes].
    destruct (prun rule n a t) as [| |r'] eqn:E; [discriminate|auto|].
    intros [= <-]. eapply IH; eassumption.
  - assert (HL : forall b, (forall r0, b = Some r0 -> eats t r0) ->
                           plongest (prun rule n) es t b = POk r -> eats t r).
    2: { intros H. eapply HL; [|exact H]. discriminate. }
    revert He. induction es as [|a es IHes]; intros He b Hb; cbn [plongest].
    + destruct b; [|discriminate]. intros [= <-]. auto.
    + cbn [forallb] in He. apply andb_true_iff in He as [Ha Hes].
      destruct (prun rule n a t) as [| |r'] eqn:E; [discriminate|apply IHes; assumption|].
      assert (Hr' : eats t r') by (eapply IH; eassumption).
      destruct b as [r0|]; [destruct (_ <? _)|]; (apply IHes; [exact Hes|]); auto;
        intros ? [= <-]; exact Hr'.
  - apply andb_true_iff in He as [He Hes].
    destruct (prun rule n e t) as [| |r'] eqn:E; [discriminate|discriminate|].
    intros H. eapply eats_trans; [eapply IH; eassumption|eapply Hseq; eassumption].
  - generalize 0%nat as num. generalize (S (List.length t)) as k. intros k. revert t r.
    induction k as [|k IHk]; intros t r num; cbn [prep]; [discriminate|].
    destruct (prun rule n e t) as [| |r'] eqn:E; [discriminate| |].
    + destruct (Nat.ltb num min); [discriminate|]. intros [= <-]. left; reflexivity.
    + intros H. eapply eats_trans; [eapply IH; eassumption|eapply IHk; eassumption].
  - destruct (prun rule n e t) as [| |r'] eqn:E; [discriminate|discriminate|].
    destruct (prun rule n p r'); try discriminate. intros [= <-]. eapply IH; eassumption.
  - destruct (prun rule n e t) as [| |r'] eqn:E; [discriminate|discriminate|].
    destruct (prun rule n p r'); try discriminate. intros [= <-]. eapply IH; eassumption.
  - destruct (prun rule n p t); try discriminate. intros H. eapply IH; eassumption.
  - intros H. eapply IH; [apply HA|exact H].
Qed.
End Chars.

(** The Lojban alphabet: what the rules of rules.rs can consume. *)
Definition LOJBAN : list char :=
  lit "'habcdefgijklmnoprstuvxyzABCDEFGIJKLMNOPRSTUVXYZ0123456789".

Lemma rules_chars x : chars_in LOJBAN (rule x) = true.
Proof. destruct x; vm_compute; reflexivity. Qed.

Lemma ev_eats x t r : ev (Call x) t = Some r -> eats LOJBAN t r.
Proof.
  unfold ev. destruct (prun rule (rules_fuel t) (Call x) t) eqn:E; try discriminate.
  intros [= <-]. eapply (prun_eats rule LOJBAN rules_chars); [|exact E]. reflexivity.
Qed.

Lemma ev_eats_strict x t r : nn x = true -> ev (Call x) t = Some r ->
  exists m c, t = m ++ c :: r /\ is_comma c = false /\ mem_char c LOJBAN = true /\
              Forall (fun x => is_comma x = true \/ mem_char x LOJBAN = true) m.
Proof.
  intros Hn H. pose proof (ev_nonnull (Call x) t r Hn H) as Hl.
  apply ev_eats in H as [->|H]; [lia|exact H].
Qed.

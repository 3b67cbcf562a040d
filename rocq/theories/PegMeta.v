(** PegMeta.v -- metatheory of the combinators of Peg.v.

    [prun] is the "rest only" reading of [run]; [run_prun] shows that the
    pointer arithmetic and slicing of the Rust code always yields the consumed
    prefix and never panics, for every grammar and input.  Then: results do not
    depend on fuel, and a certified well-formedness check of the grammar gives
    termination. *)
From Verif Require Import Base Peg.
From Coq Require Import Lia Arith.

(** * Slicing lemmas *)

Lemma clen_pos c : 1 <= clen c.
Proof. unfold clen; repeat (destruct (_ <? _)); lia. Qed.

Lemma clen_le4 c : clen c <= 4.
Proof. unfold clen; repeat (destruct (_ <? _)); lia. Qed.

Lemma blen_app a b : blen (a ++ b) = blen a + blen b.
Proof. induction a as [|c a IH]; cbn [blen app]; [lia|rewrite IH; lia]. Qed.

Lemma blen_cons c t : blen (c :: t) = clen c + blen t.
Proof. reflexivity. Qed.

Lemma length_blen t : N.of_nat (List.length t) <= blen t.
Proof.
  induction t as [|c t IH]; cbn [blen List.length]; [lia|].
  pose proof (clen_pos c); lia.
Qed.

Lemma blen_0 t : blen t = 0 -> t = [].
Proof. destruct t as [|c t]; [reflexivity|]. cbn [blen]. pose proof (clen_pos c); lia. Qed.

Lemma split_bytes_app m r : split_bytes (m ++ r) (blen m) = Some (m, r).
Proof.
  induction m as [|c m IH]; cbn [app blen].
  - destruct r; reflexivity.
  - cbn [split_bytes]. pose proof (clen_pos c).
    destruct (clen c + blen m =? 0) eqn:E; [apply N.eqb_eq in E; lia|].
    destruct (clen c <=? clen c + blen m) eqn:E2; [|apply N.leb_gt in E2; lia].
    replace (clen c + blen m - clen c) with (blen m) by lia.
    rewrite IH. reflexivity.
Qed.

Lemma split_bytes_0 t : split_bytes t 0 = Some ([], t).
Proof. destruct t; reflexivity. Qed.

Lemma split_bytes_inv t n a b : split_bytes t n = Some (a, b) -> t = a ++ b /\ blen a = n.
Proof.
  revert n a b; induction t as [|c u IH]; intros n a b; cbn [split_bytes];
    destruct (n =? 0) eqn:E.
  - apply N.eqb_eq in E; subst. intros [= <- <-]. split; reflexivity.
  - discriminate.
  - apply N.eqb_eq in E; subst. intros [= <- <-]. split; reflexivity.
  - destruct (clen c <=? n) eqn:E2; [|discriminate].
    apply N.leb_le in E2.
    destruct (split_bytes u (n - clen c)) as [[a' b']|] eqn:E3; [|discriminate].
    intros [= <- <-]. apply IH in E3 as [-> Hb]. split; [reflexivity|].
    cbn [blen]. lia.
Qed.

Lemma s_get_mid p a m b :
  s_get (mkstr p (a ++ m ++ b)) (blen a) (blen a + blen m) = Some (mkstr (p + blen a) m).
Proof.
  unfold s_get. cbn [txt ptr].
  destruct (blen a + blen m <? blen a) eqn:E; [apply N.ltb_lt in E; lia|].
  rewrite split_bytes_app. replace (blen a + blen m - blen a) with (blen m) by lia.
  rewrite split_bytes_app. reflexivity.
Qed.

Lemma s_get_prefix p m r : s_get (mkstr p (m ++ r)) 0 (blen m) = Some (mkstr p m).
Proof.
  pose proof (s_get_mid p [] m r) as H. cbn [app blen] in H.
  rewrite !N.add_0_l, N.add_0_r in H. exact H.
Qed.

(** * Rest-only semantics *)

Inductive pr := POut | PFail | POk (r : list char).

(** skip commas and return the next char and what follows it *)
Fixpoint next_char (t : list char) : option (char * list char) :=
  match t with
  | [] => None
  | c :: u => if is_comma c then next_char u else Some (c, u)
  end.

Section Meta.
Context {nt : Type} (rule : nt -> pexp nt).

Fixpoint pseq (f : pexp nt -> list char -> pr) (es : list (pexp nt)) (t : list char) : pr :=
  match es with
  | [] => POk t
  | e :: es' => match f e t with POk r => pseq f es' r | other => other end
  end.

Fixpoint por (f : pexp nt -> list char -> pr) (es : list (pexp nt)) (t : list char) : pr :=
  match es with
  | [] => PFail
  | e :: es' => match f e t with PFail => por f es' t | other => other end
  end.

Fixpoint plongest (f : pexp nt -> list char -> pr) (es : list (pexp nt)) (t : list char)
    (best : option (list char)) : pr :=
  match es with
  | [] => match best with Some r => POk r | None => PFail end
  | e :: es' =>
      match f e t with
      | POk r => match best with
                 | None => plongest f es' t (Some r)
                 | Some r0 => if blen r <? blen r0 then plongest f es' t (Some r)
                              else plongest f es' t best
                 end
      | PFail => plongest f es' t best
      | POut => POut
      end
  end.

Fixpoint prep (f : list char -> pr) (k : nat) (min : nat) (rest : list char) (num : nat) : pr :=
  match k with
  | O => POut
  | S k' => match f rest with
            | POk r => prep f k' min r (S num)
            | PFail => if Nat.ltb num min then PFail else POk rest
            | POut => POut
            end
  end.

Fixpoint prun (fuel : nat) (e : pexp nt) (t : list char) : pr :=
  match fuel with
  | O => POut
  | S n =>
      match e with
      | One chs => match next_char t with
                   | Some (c, r) => if mem_char c chs then POk r else PFail
                   | None => PFail
                   end
      | Eof => match t with [] => POk [] | _ => PFail end
      | Null => POk t
      | Not e => match prun n e t with POk _ => PFail | PFail => POk t | POut => POut end
      | Peek e => match prun n e t with POk _ => POk t | other => other end
      | Or es => por (prun n) es t
      | Longest es => plongest (prun n) es t None
      | Seq e es => match prun n e t with POk r => pseq (prun n) es r | other => other end
      | Repeat min e => prep (prun n e) (S (List.length t)) min t 0%nat
      | AndPeek e p => match prun n e t with
                       | POk r => match prun n p r with POk _ => POk r | other => other end
                       | other => other
                       end
      | AndNot e p => match prun n e t with
                      | POk r => match prun n p r with POk _ => PFail | PFail => POk r | POut => POut end
                      | other => other
                      end
      | NotThen p e => match prun n p t with
                       | POk _ => PFail
                       | PFail => prun n e t
                       | POut => POut
                       end
      | Call x => prun n (rule x) t
      end
  end.

(** ** [run] computes what [prun] says, with the right slices *)

Definition agrees (s : str) (q : pr) (p : pres) : Prop :=
  match q with
  | POut => p = Out
  | PFail => p = Fail
  | POk r => exists m, txt s = m ++ r /\
                       p = Match (mkstr (ptr s) m) (mkstr (ptr s + blen m) r)
  end.

Lemma slice_ptrs_prefix s m r rest :
  txt s = m ++ r -> slice_ptrs s (ptr s) (ptr s + blen m) rest = Match (mkstr (ptr s) m) rest.
Proof.
  intros H. unfold slice_ptrs.
  destruct (ptr s <=? ptr s) eqn:E1; [|apply N.leb_gt in E1; lia].
  destruct (ptr s <=? ptr s + blen m) eqn:E2; [|apply N.leb_gt in E2; lia].
  cbn [andb]. replace (ptr s - ptr s) with 0 by lia.
  replace (ptr s + blen m - ptr s) with (blen m) by lia.
  destruct s as [p t]. cbn [txt ptr] in *. rewrite H, s_get_prefix. reflexivity.
Qed.

Lemma find_non_comma_next t p :
  match next_char t with
  | None => find_non_comma t p = None
  | Some (c, r) => exists m, t = m ++ r /\ find_non_comma t p = Some (c, mkstr (p + blen m) r)
  end.
Proof.
  revert p; induction t as [|c u IH]; intros p; cbn [next_char find_non_comma]; [reflexivity|].
  destruct (is_comma c).
  - specialize (IH (p + clen c)). destruct (next_char u) as [[c' r]|].
    + destruct IH as (m & -> & ->). exists (c :: m). split; [reflexivity|].
      cbn [blen]. do 3 f_equal. lia.
    + exact IH.
  - exists [c]. split; [reflexivity|]. cbn [blen]. do 3 f_equal. lia.
Qed.

Lemma run_one_agrees chs s :
  agrees s (match next_char (txt s) with
            | Some (c, r) => if mem_char c chs then POk r else PFail
            | None => PFail
            end) (run_one chs s).
Proof.
  unfold run_one. pose proof (find_non_comma_next (txt s) (ptr s)) as H.
  destruct (next_char (txt s)) as [[c r]|].
  - destruct H as (m & Ht & ->). cbn [ptr].
    destruct (mem_char c chs); [|reflexivity].
    replace (ptr s + blen m - ptr s) with (blen m) by lia.
    unfold s_split_at. rewrite Ht, split_bytes_app. exists m. split; [exact Ht|reflexivity].
  - rewrite H. reflexivity.
Qed.

Lemma agrees_null s : agrees s (POk (txt s)) (run_null s).
Proof.
  exists []. split; [reflexivity|]. unfold run_null. cbn [blen].
  rewrite N.add_0_r. destruct s; reflexivity.
Qed.

Section Step.
Context (n : nat).
Hypothesis IH : forall e s, agrees s (prun n e (txt s)) (run rule n e s).

Lemma seq_tail_agrees es : forall s m r,
  txt s = m ++ r ->
  agrees s (pseq (prun n) es r)
    (seq_tail (run rule n) es s (ptr s) (ptr s + blen m) (mkstr (ptr s + blen m) r)).
Proof.
  induction es as [|e es IHes]; intros s m r Hs; cbn [pseq seq_tail].
  - exists m. split; [exact Hs|]. apply slice_ptrs_prefix with (r := r). exact Hs.
  - pose proof (IH e (mkstr (ptr s + blen m) r)) as H. cbn [txt] in H.
    destruct (prun n e r) as [| |r'].
    + cbn in H. rewrite H. reflexivity.
    + cbn in H. rewrite H. reflexivity.
    + destruct H as (m' & Hr & ->). cbn [ptr txt] in *. unfold s_len; cbn [txt ptr].
      specialize (IHes s (m ++ m') r'). rewrite blen_app, N.add_assoc in IHes.
      apply IHes. rewrite Hs, Hr, app_assoc. reflexivity.
Qed.

Lemma or_list_agrees es : forall s, agrees s (por (prun n) es (txt s)) (or_list (run rule n) es s).
Proof.
  induction es as [|e es IHes]; intros s; cbn [por or_list]; [reflexivity|].
  pose proof (IH e s) as H. destruct (prun n e (txt s)) as [| |r].
  - cbn in H. rewrite H. reflexivity.
  - cbn in H. rewrite H. apply IHes.
  - destruct H as (m & Hs & ->). exists m. split; [exact Hs|reflexivity].
Qed.

Definition best_agrees (s : str) (bp : option (list char)) (br : option (str * str)) : Prop :=
  match bp with
  | None => br = None
  | Some r => exists m, txt s = m ++ r /\ br = Some (mkstr (ptr s) m, mkstr (ptr s + blen m) r)
  end.

Lemma longest_agrees es : forall s bp br, best_agrees s bp br ->
  agrees s (plongest (prun n) es (txt s) bp) (longest_list (run rule n) es s br).
Proof.
  induction es as [|e es IHes]; intros s bp br Hb; cbn [plongest longest_list].
  - destruct bp as [r|]; cbn in Hb.
    + destruct Hb as (m & Hs & ->). exists m. split; [exact Hs|reflexivity].
    + rewrite Hb. reflexivity.
  - pose proof (IH e s) as H. destruct (prun n e (txt s)) as [| |r].
    + cbn in H. rewrite H. reflexivity.
    + cbn in H. rewrite H. apply IHes; exact Hb.
    + destruct H as (m & Hs & ->).
      assert (Hnew : best_agrees s (Some r) (Some (mkstr (ptr s) m, mkstr (ptr s + blen m) r)))
        by (exists m; split; [exact Hs|reflexivity]).
      destruct bp as [r0|]; cbn [best_agrees] in Hb.
      * destruct Hb as (m0 & Hs0 & ->). unfold s_len; cbn [txt].
        destruct (blen r <? blen r0).
        -- apply IHes; exact Hnew.
        -- apply IHes. exists m0. split; [exact Hs0|reflexivity].
      * rewrite Hb. apply IHes; exact Hnew.
Qed.

Lemma rep_agrees e min k : forall s m r first num,
  txt s = m ++ r ->
  first = None /\ m = [] \/ first = Some (ptr s) ->
  agrees s (prep (prun n e) k min r num)
    (rep_loop (run rule n e) k min s (mkstr (ptr s + blen m) r) first (ptr s + blen m) num).
Proof.
  induction k as [|k IHk]; intros s m r first num Hs Hf; cbn [prep rep_loop]; [reflexivity|].
  pose proof (IH e (mkstr (ptr s + blen m) r)) as H. cbn [txt] in H.
  destruct (prun n e r) as [| |r'].
  - cbn in H. rewrite H. reflexivity.
  - cbn in H. rewrite H. destruct (Nat.ltb num min); [reflexivity|].
    exists m. split; [exact Hs|].
    replace (match first with None => ptr s | Some p => p end) with (ptr s)
      by (destruct Hf as [[-> _]| ->]; reflexivity).
    apply slice_ptrs_prefix with (r := r). exact Hs.
  - destruct H as (m' & Hr & ->). unfold s_len; cbn [ptr txt] in *.
    specialize (IHk s (m ++ m') r' (match first with None => Some (ptr s + blen m) | Some p => Some p end) (S num)).
    rewrite blen_app, N.add_assoc in IHk. apply IHk.
    + rewrite Hs, Hr, app_assoc. reflexivity.
    + right. destruct Hf as [[-> ->]| ->]; [cbn [blen]; rewrite N.add_0_r|]; reflexivity.
Qed.
End Step.

Theorem run_prun n : forall e s, agrees s (prun n e (txt s)) (run rule n e s).
Proof.
  induction n as [|n IH]; intros e s; [reflexivity|].
  destruct e as [chs| | |e|e|es|es|e es|min e|e p|e p|p e|x]; cbn [prun run].
  - apply run_one_agrees.
  - unfold s_is_empty. destruct (txt s) as [|c t] eqn:E; [|reflexivity].
    rewrite <- E. apply agrees_null.
  - apply agrees_null.
  - pose proof (IH e s) as H. destruct (prun n e (txt s)) as [| |r]; cbn in H.
    + rewrite H; reflexivity.
    + rewrite H; apply agrees_null.
    + destruct H as (m & _ & ->). reflexivity.
  - pose proof (IH e s) as H. destruct (prun n e (txt s)) as [| |r]; cbn in H.
    + rewrite H; reflexivity.
    + rewrite H; reflexivity.
    + destruct H as (m & _ & ->). apply agrees_null.
  - apply or_list_agrees; exact IH.
  - apply longest_agrees; [exact IH|reflexivity].
  - pose proof (IH e s) as H. destruct (prun n e (txt s)) as [| |r]; cbn in H.
    + rewrite H; reflexivity.
    + rewrite H; reflexivity.
    + destruct H as (m & Hs & ->). unfold s_len; cbn [ptr txt].
      apply seq_tail_agrees; assumption.
  - pose proof (rep_agrees n IH e min (S (List.length (txt s))) s [] (txt s) None 0%nat
                  eq_refl (or_introl (conj eq_refl eq_refl))) as H.
    cbn [blen] in H. rewrite N.add_0_r in H. destruct s as [p t]; exact H.
  - pose proof (IH e s) as H. destruct (prun n e (txt s)) as [| |r]; cbn in H.
    + rewrite H; reflexivity.
    + rewrite H; reflexivity.
    + destruct H as (m & Hs & ->).
      pose proof (IH p (mkstr (ptr s + blen m) r)) as H2. cbn [txt] in H2.
      destruct (prun n p r) as [| |r2]; cbn in H2.
      * rewrite H2; reflexivity.
      * rewrite H2; reflexivity.
      * destruct H2 as (m2 & _ & ->). exists m. split; [exact Hs|reflexivity].
  - pose proof (IH e s) as H. destruct (prun n e (txt s)) as [| |r]; cbn in H.
    + rewrite H; reflexivity.
    + rewrite H; reflexivity.
    + destruct H as (m & Hs & ->).
      pose proof (IH p (mkstr (ptr s + blen m) r)) as H2. cbn [txt] in H2.
      destruct (prun n p r) as [| |r2]; cbn in H2.
      * rewrite H2; reflexivity.
      * rewrite H2. exists m. split; [exact Hs|reflexivity].
      * destruct H2 as (m2 & _ & ->). reflexivity.
  - pose proof (IH p s) as H. destruct (prun n p (txt s)) as [| |r]; cbn in H.
    + rewrite H; reflexivity.
    + rewrite H. apply IH.
    + destruct H as (m & _ & ->). reflexivity.
  - apply IH.
Qed.

(** ** The rest is a suffix *)

Lemma next_char_suffix t c r : next_char t = Some (c, r) ->
  exists m, t = m ++ c :: r /\ Forall (fun x => is_comma x = true) m /\ is_comma c = false.
Proof.
  induction t as [|a u IHt]; cbn [next_char]; [discriminate|].
  destruct (is_comma a) eqn:E.
  - intros H. apply IHt in H as (m & -> & Hm & Hc). exists (a :: m).
    split; [reflexivity|]. split; [constructor; assumption|exact Hc].
  - intros [= <- <-]. exists []. repeat split; [constructor|exact E].
Qed.

Lemma prun_suffix n e t r : prun n e t = POk r -> exists m, t = m ++ r.
Proof.
  intros H. pose proof (run_prun n e (mkstr 0 t)) as A. cbn [txt] in A. rewrite H in A.
  destruct A as (m & Hm & _). exists m. exact Hm.
Qed.

Lemma prun_length n e t r : prun n e t = POk r -> (List.length r <= List.length t)%nat.
Proof.
  intros H. apply prun_suffix in H as (m & ->). rewrite app_length. lia.
Qed.

(** ** Results do not depend on the fuel *)

Definition le_pr (a b : pr) : Prop := a = POut \/ a = b.

Lemma prun_mono_S n : forall e t, le_pr (prun n e t) (prun (S n) e t).
Proof.
  induction n as [|n IH]; intros e t; [left; reflexivity|].
  remember (S n) as sn eqn:Esn.
  assert (HM : forall e t, le_pr (prun n e t) (prun sn e t)) by (subst sn; exact IH).
  assert (Hseq : forall es t, le_pr (pseq (prun n) es t) (pseq (prun sn) es t)).
  { induction es as [|a es IHes]; intros t0; cbn [pseq]; [right; reflexivity|].
    destruct (HM a t0) as [-> | ->]; [left; reflexivity|].
    destruct (prun sn a t0); [right; reflexivity|right; reflexivity|apply IHes]. }
  assert (Hor : forall es t, le_pr (por (prun n) es t) (por (prun sn) es t)).
  { induction es as [|a es IHes]; intros t0; cbn [por]; [right; reflexivity|].
    destruct (HM a t0) as [-> | ->]; [left; reflexivity|].
    destruct (prun sn a t0); [right; reflexivity|apply IHes|right; reflexivity]. }
  assert (Hlo : forall es t b, le_pr (plongest (prun n) es t b) (plongest (prun sn) es t b)).
  { induction es as [|a es IHes]; intros t0 b; cbn [plongest]; [right; reflexivity|].
    destruct (HM a t0) as [-> | ->]; [left; reflexivity|].
    destruct (prun sn a t0); [right; reflexivity|apply IHes|].
    destruct b as [r0|]; [destruct (_ <? _)|]; apply IHes. }
  assert (Hrep : forall a k min t num, le_pr (prep (prun n a) k min t num) (prep (prun sn a) k min t num)).
  { induction k as [|k IHk]; intros min t0 num; cbn [prep]; [left; reflexivity|].
    destruct (HM a t0) as [-> | ->]; [left; reflexivity|].
    destruct (prun sn a t0); [right; reflexivity|right; reflexivity|apply IHk]. }
  subst sn.
  destruct e as [chs| | |e|e|es|es|e es|min e|e p|e p|p e|x].
  - right; reflexivity.
  - right; reflexivity.
  - right; reflexivity.
  - cbn [prun] in *. destruct (HM e t) as [-> | ->]; [left; reflexivity|right; reflexivity].
  - cbn [prun] in *. destruct (HM e t) as [-> | ->]; [left; reflexivity|right; reflexivity].
  - exact (Hor es t).
  - exact (Hlo es t None).
  - change (le_pr (match prun n e t with POk r => pseq (prun n) es r | other => other end)
                  (match prun (S n) e t with POk r => pseq (prun (S n)) es r | other => other end)).
    destruct (HM e t) as [-> | ->]; [left; reflexivity|].
    destruct (prun (S n) e t); [right; reflexivity|right; reflexivity|apply Hseq].
  - exact (Hrep e (S (List.length t)) min t 0%nat).
  - change (le_pr (match prun n e t with POk r => match prun n p r with POk _ => POk r | other => other end | other => other end)
                  (match prun (S n) e t with POk r => match prun (S n) p r with POk _ => POk r | other => other end | other => other end)).
    destruct (HM e t) as [-> | ->]; [left; reflexivity|].
    destruct (prun (S n) e t) as [| |r]; [right; reflexivity|right; reflexivity|].
    destruct (HM p r) as [-> | ->]; [left; reflexivity|right; reflexivity].
  - change (le_pr (match prun n e t with POk r => match prun n p r with POk _ => PFail | PFail => POk r | POut => POut end | other => other end)
                  (match prun (S n) e t with POk r => match prun (S n) p r with POk _ => PFail | PFail => POk r | POut => POut end | other => other end)).
    destruct (HM e t) as [-> | ->]; [left; reflexivity|].
    destruct (prun (S n) e t) as [| |r]; [right; reflexivity|right; reflexivity|].
    destruct (HM p r) as [-> | ->]; [left; reflexivity|right; reflexivity].
  - change (le_pr (match prun n p t with POk _ => PFail | PFail => prun n e t | POut => POut end)
                  (match prun (S n) p t with POk _ => PFail | PFail => prun (S n) e t | POut => POut end)).
    destruct (HM p t) as [-> | ->]; [left; reflexivity|].
    destruct (prun (S n) p t); [right; reflexivity|apply HM|right; reflexivity].
  - exact (HM (rule x) t).
Qed.

Lemma prun_mono n m e t : (n <= m)%nat -> prun n e t <> POut -> prun m e t = prun n e t.
Proof.
  intros Hle Hne. induction Hle as [|m Hle IHle]; [reflexivity|].
  destruct (prun_mono_S m e t) as [H|H].
  - congruence.
  - congruence.
Qed.

(** ** Certified termination *)

Section Cert.
(** [nn x]: rule [x] consumes at least one char when it matches;
    [nd x]: nesting bound for the calls made before anything is consumed;
    [D]: nesting bound for everything. *)
Context (nn : nt -> bool) (nd : nt -> nat) (D : nat).

Fixpoint nonnull (e : pexp nt) : bool :=
  match e with
  | One _ => true
  | Eof | Null | Not _ | Peek _ => false
  | Or es => forallb nonnull es
  | Longest es => forallb nonnull es
  | Seq e es => nonnull e || existsb nonnull es
  | Repeat min e => (Nat.ltb 0 min) && nonnull e
  | AndPeek e _ => nonnull e
  | AndNot e _ => nonnull e
  | NotThen _ e => nonnull e
  | Call x => nn x
  end.

(** nesting needed when calls at the starting position cost [nd] *)
Fixpoint need (e : pexp nt) : nat :=
  S match e with
    | One _ | Eof | Null => 0
    | Not e | Peek e => need e
    | Or es | Longest es => (fix go l := match l with [] => 0 | a :: r => Nat.max (need a) (go r) end) es
    | Seq e es =>
        Nat.max (need e)
          (if nonnull e then 0
           else (fix go l := match l with
                             | [] => 0
                             | a :: r => Nat.max (need a) (if nonnull a then 0 else go r)
                             end) es)
    | Repeat _ e => need e
    | AndPeek e p | AndNot e p => Nat.max (need e) (if nonnull e then 0 else need p)
    | NotThen p e => Nat.max (need p) (need e)
    | Call x => nd x
    end%nat.

(** every subexpression needs at most [D], and [Repeat] bodies consume *)
Fixpoint wf (e : pexp nt) : bool :=
  Nat.leb (need e) D &&
  match e with
  | One _ | Eof | Null | Call _ => true
  | Not e | Peek e => wf e
  | Or es | Longest es => forallb wf es
  | Seq e es => wf e && forallb wf es
  | Repeat _ e => nonnull e && wf e
  | AndPeek e p | AndNot e p | NotThen e p => wf e && wf p
  end.

Definition grammar_ok : Prop :=
  forall x, (nn x = true -> nonnull (rule x) = true) /\
            (need (rule x) <= nd x)%nat /\ wf (rule x) = true.

Hypothesis OK : grammar_ok.

Lemma pexp_ind' (P : pexp nt -> Prop)
  (HOne : forall chs, P (One chs)) (HEof : P Eof) (HNull : P Null)
  (HNot : forall e, P e -> P (Not e)) (HPeek : forall e, P e -> P (Peek e))
  (HOr : forall es, Forall P es -> P (Or es)) (HLongest : forall es, Forall P es -> P (Longest es))
  (HSeq : forall e es, P e -> Forall P es -> P (Seq e es))
  (HRep : forall m e, P e -> P (Repeat m e))
  (HAP : forall e p, P e -> P p -> P (AndPeek e p))
  (HAN : forall e p, P e -> P p -> P (AndNot e p))
  (HNT : forall p e, P p -> P e -> P (NotThen p e))
  (HCall : forall x, P (Call x)) : forall e, P e.
Proof.
  fix F 1. intros e.
  assert (FL : forall es, Forall P es).
  { fix G 1. intros [|a l]; constructor; [apply F|apply G]. }
  destruct e; [apply HOne|apply HEof|apply HNull|apply HNot|apply HPeek|apply HOr|apply HLongest
              |apply HSeq|apply HRep|apply HAP|apply HAN|apply HNT|apply HCall]; auto.
Qed.

Lemma nonnull_sound n : forall e t r,
  nonnull e = true -> prun n e t = POk r -> (List.length r < List.length t)%nat.
Proof.
  induction n as [|n IH]; intros e t r Hn; [discriminate|].
  assert (Hle : forall e t r, prun n e t = POk r -> (List.length r <= List.length t)%nat)
    by (intros; eapply prun_length; eassumption).
  destruct e as [chs| | |e|e|es|es|e es|min e|e p|e p|p e|x]; cbn [nonnull] in Hn; try discriminate; cbn [prun].
  - destruct (next_char t) as [[c u]|] eqn:E; [|discriminate].
    destruct (mem_char c chs); [|discriminate]. intros [= <-].
    apply next_char_suffix in E as (m & -> & _). rewrite app_length. cbn [List.length]. lia.
  - induction es as [|a es IHes]; cbn [por]; [discriminate|].
    cbn [forallb] in Hn. apply andb_true_iff in Hn as [Ha Hes].
    destruct (prun n a t) as [| |r'] eqn:E; [discriminate|auto|].
    intros [= <-]. eapply IH; eassumption.
  - assert (HL : forall b, (forall r0, b = Some r0 -> (List.length r0 < List.length t)%nat) ->
                           plongest (prun n) es t b = POk r -> (List.length r < List.length t)%nat).
    2: { intros H. eapply HL; [|exact H]. discriminate. }
    revert Hn. induction es as [|a es IHes]; intros Hn b Hb; cbn [plongest].
    + destruct b; [|discriminate]. intros [= <-]. auto.
    + cbn [forallb] in Hn. apply andb_true_iff in Hn as [Ha Hes].
      destruct (prun n a t) as [| |r'] eqn:E; [discriminate|apply IHes; assumption|].
      assert (Hr' : (List.length r' < List.length t)%nat) by (eapply IH; eassumption).
      destruct b as [r0|]; [destruct (_ <? _)|]; (apply IHes; [exact Hes|]); auto;
        intros ? [= <-]; exact Hr'.
  - destruct (prun n e t) as [| |r'] eqn:E; [discriminate|discriminate|].
    assert (Hseq : forall es r', pseq (prun n) es r' = POk r ->
       (List.length r <= List.length r')%nat /\ (existsb nonnull es = true -> (List.length r < List.length r')%nat)).
    { clear - IH Hle. induction es as [|a es IHes]; intros r' H; cbn [pseq] in H.
      - injection H as <-. split; [lia|discriminate].
      - destruct (prun n a r') as [| |r2] eqn:E; [discriminate|discriminate|].
        pose proof (Hle _ _ _ E). apply IHes in H as [H1 H2]. split; [lia|].
        cbn [existsb]. intros Hx. apply orb_true_iff in Hx as [Hx|Hx].
        + pose proof (IH _ _ _ Hx E). lia.
        + specialize (H2 Hx). lia. }
    intros H. apply Hseq in H as [H1 H2]. apply orb_true_iff in Hn as [Hx|Hx].
    + pose proof (IH _ _ _ Hx E). lia.
    + specialize (H2 Hx). pose proof (Hle _ _ _ E). lia.
  - apply andb_true_iff in Hn as [Hmin Hn]. apply Nat.ltb_lt in Hmin.
    assert (Hrep : forall k t' num, (num = 0 /\ t' = t \/ List.length t' < List.length t)%nat ->
       prep (prun n e) k min t' num = POk r -> (List.length r < List.length t)%nat).
    { induction k as [|k IHk]; intros t' num Ht; cbn [prep]; [discriminate|].
      destruct (prun n e t') as [| |r'] eqn:E; [discriminate| |].
      - destruct (Nat.ltb num min) eqn:El; [discriminate|]. apply Nat.ltb_ge in El.
        intros [= <-]. lia.
      - apply IHk. right. pose proof (IH _ _ _ Hn E). destruct Ht as [[_ ->]|Ht]; lia. }
    apply Hrep. left. split; reflexivity.
  - destruct (prun n e t) as [| |r'] eqn:E; [discriminate|discriminate|].
    destruct (prun n p r'); try discriminate. intros [= <-]. eapply IH; eassumption.
  - destruct (prun n e t) as [| |r'] eqn:E; [discriminate|discriminate|].
    destruct (prun n p r'); try discriminate. intros [= <-]. eapply IH; eassumption.
  - destruct (prun n p t); try discriminate. intros H. eapply IH; eassumption.
  - apply IH. apply OK. exact Hn.
Qed.

Lemma wf_need e : wf e = true -> (need e <= D)%nat.
Proof. destruct e; cbn [wf]; intros H; apply andb_true_iff in H as [H _]; apply Nat.leb_le in H; exact H. Qed.

Lemma prun_total n : forall e t, wf e = true -> (D * List.length t + need e <= n)%nat ->
  prun n e t <> POut.
Proof.
  induction n as [|n IH]; intros e t Hwf Hn.
  - destruct e; cbn [need] in Hn; lia.
  - assert (Hlen : forall e t r, prun n e t = POk r -> (List.length r <= List.length t)%nat)
      by (intros; eapply prun_length; eassumption).
    assert (Hshort : forall a u, wf a = true -> (List.length u < List.length t)%nat -> prun n a u <> POut).
    { intros a u Ha Hu. apply IH; [exact Ha|]. pose proof (wf_need a Ha).
      assert (D * List.length u + D <= D * List.length t)%nat by nia.
      destruct e; cbn [need] in Hn; lia. }
    assert (Hsame : forall a u, wf a = true -> (List.length u <= List.length t)%nat ->
                                (need a < need e)%nat -> prun n a u <> POut).
    { intros a u Ha Hu Hna. apply IH; [exact Ha|].
      assert (D * List.length u <= D * List.length t)%nat by nia. lia. }
    destruct e as [chs| | |e|e|es|es|e es|min e|e p|e p|p e|x]; cbn [prun].
    + destruct (next_char t) as [[c u]|]; [destruct (mem_char c chs)|]; discriminate.
    + destruct t; discriminate.
    + discriminate.
    + cbn [wf] in Hwf. apply andb_true_iff in Hwf as [_ Hwf].
      assert (H : prun n e t <> POut) by (apply Hsame; [exact Hwf|lia|cbn [need]; lia]).
      destruct (prun n e t); congruence.
    + cbn [wf] in Hwf. apply andb_true_iff in Hwf as [_ Hwf].
      assert (H : prun n e t <> POut) by (apply Hsame; [exact Hwf|lia|cbn [need]; lia]).
      destruct (prun n e t); congruence.
    + cbn [wf] in Hwf. apply andb_true_iff in Hwf as [_ Hwf].
      assert (HH : forall a, In a es -> prun n a t <> POut).
      { intros a Ha. rewrite forallb_forall in Hwf. apply Hsame; [auto|lia|].
        cbn [need]. apply Nat.lt_succ_r. clear - Ha.
        induction es as [|b es IHes]; [destruct Ha|]. destruct Ha as [->|Ha]; [lia|].
        specialize (IHes Ha). lia. }
      clear - HH. induction es as [|a es IHes]; cbn [por]; [discriminate|].
      pose proof (HH a (or_introl eq_refl)). destruct (prun n a t); [congruence| |discriminate].
      apply IHes. intros b Hb. apply HH. right; exact Hb.
    + cbn [wf] in Hwf. apply andb_true_iff in Hwf as [_ Hwf].
      assert (HH : forall a, In a es -> prun n a t <> POut).
      { intros a Ha. rewrite forallb_forall in Hwf. apply Hsame; [auto|lia|].
        cbn [need]. apply Nat.lt_succ_r. clear - Ha.
        induction es as [|b es IHes]; [destruct Ha|]. destruct Ha as [->|Ha]; [lia|].
        specialize (IHes Ha). lia. }
      clear - HH. generalize (@None (list char)).
      induction es as [|a es IHes]; intros b; cbn [plongest]; [destruct b; discriminate|].
      pose proof (HH a (or_introl eq_refl)).
      assert (HH' : forall a, In a es -> prun n a t <> POut) by (intros c Hc; apply HH; right; exact Hc).
      specialize (IHes HH').
      destruct (prun n a t); [congruence|apply IHes|].
      destruct b as [r0|]; [destruct (_ <? _)|]; apply IHes.
    + cbn [wf] in Hwf. apply andb_true_iff in Hwf as [_ Hwf]. apply andb_true_iff in Hwf as [He Hes].
      assert (H : prun n e t <> POut) by (apply Hsame; [exact He|lia|cbn [need]; lia]).
      destruct (prun n e t) as [| |r] eqn:E; [congruence|discriminate|].
      pose proof (Hlen _ _ _ E) as Hr.
      assert (Hcase : (List.length r < List.length t)%nat \/ nonnull e = false).
      { destruct (nonnull e) eqn:En; [left|right; reflexivity]. eapply nonnull_sound; eassumption. }
      set (go := fix go l := match l with
                             | [] => 0
                             | a :: r => Nat.max (need a) (if nonnull a then 0 else go r)
                             end%nat) in *.
      assert (Hgo : (List.length r < List.length t \/ go es < need (Seq e es))%nat).
      { destruct Hcase as [Hc|Hc]; [left; exact Hc|right]. cbn [need]. rewrite Hc. fold go. lia. }
      clear Hcase E H Hn.
      revert r Hr Hgo. generalize (need (Seq e es)) Hsame. clear Hsame. intros ne Hsame.
      induction es as [|a es IHes]; intros r Hr Hgo; cbn [pseq]; [discriminate|].
      cbn [forallb] in Hes. apply andb_true_iff in Hes as [Ha Hes].
      assert (Hx : prun n a r <> POut).
      { destruct Hgo as [Hgo|Hgo]; [apply Hshort; [exact Ha|exact Hgo]|].
        apply Hsame; [exact Ha|exact Hr|]. cbn [go] in Hgo. lia. }
      destruct (prun n a r) as [| |r2] eqn:E2; [congruence|discriminate|].
      pose proof (Hlen _ _ _ E2) as Hr2.
      apply IHes; [exact Hes|lia|].
      destruct Hgo as [Hgo|Hgo]; [left; lia|].
      destruct (nonnull a) eqn:En.
      * left. pose proof (nonnull_sound _ _ _ _ En E2). lia.
      * right. cbn [go] in Hgo. rewrite En in Hgo. fold go in Hgo. lia.
    + cbn [wf] in Hwf. apply andb_true_iff in Hwf as [_ Hwf]. apply andb_true_iff in Hwf as [Hnn He].
      assert (HH : forall u, (List.length u <= List.length t)%nat -> prun n e u <> POut).
      { intros u Hu. apply Hsame; [exact He|exact Hu|cbn [need]; lia]. }
      assert (Hrep : forall k u num, (List.length u <= List.length t)%nat -> (List.length u < k)%nat ->
                 prep (prun n e) k min u num <> POut).
      { induction k as [|k IHk]; intros u num Hu Hk; [lia|]. cbn [prep].
        pose proof (HH u Hu). destruct (prun n e u) as [| |r] eqn:E; [congruence| |].
        - destruct (Nat.ltb num min); discriminate.
        - pose proof (nonnull_sound _ _ _ _ Hnn E). apply IHk; lia. }
      apply Hrep; lia.
    + cbn [wf] in Hwf. apply andb_true_iff in Hwf as [_ Hwf]. apply andb_true_iff in Hwf as [He Hp].
      assert (H : prun n e t <> POut) by (apply Hsame; [exact He|lia|cbn [need]; lia]).
      destruct (prun n e t) as [| |r] eqn:E; [congruence|discriminate|].
      pose proof (Hlen _ _ _ E) as Hr.
      assert (H2 : prun n p r <> POut).
      { destruct (nonnull e) eqn:En.
        - apply Hshort; [exact Hp|]. eapply nonnull_sound; eassumption.
        - apply Hsame; [exact Hp|exact Hr|]. cbn [need]. rewrite En. lia. }
      destruct (prun n p r); congruence.
    + cbn [wf] in Hwf. apply andb_true_iff in Hwf as [_ Hwf]. apply andb_true_iff in Hwf as [He Hp].
      assert (H : prun n e t <> POut) by (apply Hsame; [exact He|lia|cbn [need]; lia]).
      destruct (prun n e t) as [| |r] eqn:E; [congruence|discriminate|].
      pose proof (Hlen _ _ _ E) as Hr.
      assert (H2 : prun n p r <> POut).
      { destruct (nonnull e) eqn:En.
        - apply Hshort; [exact Hp|]. eapply nonnull_sound; eassumption.
        - apply Hsame; [exact Hp|exact Hr|]. cbn [need]. rewrite En. lia. }
      destruct (prun n p r); congruence.
    + cbn [wf] in Hwf. apply andb_true_iff in Hwf as [_ Hwf]. apply andb_true_iff in Hwf as [Hp He].
      assert (H : prun n p t <> POut) by (apply Hsame; [exact Hp|lia|cbn [need]; lia]).
      destruct (prun n p t); [congruence| |discriminate].
      apply Hsame; [exact He|lia|cbn [need]; lia].
    + destruct (OK x) as (_ & Hnd & Hw). apply Hsame; [exact Hw|lia|cbn [need]; lia].
Qed.
End Cert.
End Meta.

(** SymPeg.v -- symbolic execution of the rules on sets of texts.

    A pattern is a list of character classes: it stands for all texts with one
    char of each class, one after the other.  What follows is either the end of
    the text, or an unknown text of which some facts are assumed.  [sx] runs an
    expression on a pattern, splitting it where the result depends on the
    chars; [sx_sound] says that every text of the pattern is in one of the
    parts and has the result recorded there. *)
From Verif Require Import Base Peg Rules RulesApi PegMeta RulesTotal PegChars.
From Coq Require Import Lia Arith.

Definition pat := list (list char).

Inductive sres := SFail | SOk (k : nat) | STail.
Definition branch : Type := pat * sres.

(** What follows the pattern: the class of its first char and the assumed
    outcomes of rules; [None] is the end of the text. *)
Definition tailspec : Type := option (list char * list (nt * bool)).

Definition nt_eqb (a b : nt) : bool := Nat.eqb (nt_idx a) (nt_idx b).

Fixpoint fact (x : nt) (l : list (nt * bool)) : option bool :=
  match l with [] => None | (y, b) :: l' => if nt_eqb x y then Some b else fact x l' end.

Fixpoint collect {A B} (f : A -> option (list B)) (l : list A) : option (list B) :=
  match l with
  | [] => Some []
  | a :: l' => match f a with
               | Some x => match collect f l' with Some y => Some (x ++ y) | None => None end
               | None => None
               end
  end.

Definition shift_res (k : nat) (r : sres) : sres :=
  match r with SOk j => SOk (k + j) | other => other end.

(** continue after [k] chars *)
Definition after (k : nat) (p : pat) (f : pat -> option (list branch)) : option (list branch) :=
  match f (skipn k p) with
  | Some bs => Some (map (fun b => (firstn k p ++ fst b, shift_res k (snd b))) bs)
  | None => None
  end.

Definition sres_eqb (a b : sres) : bool :=
  match a, b with
  | SFail, SFail | STail, STail => true
  | SOk i, SOk j => Nat.eqb i j
  | _, _ => false
  end.

Fixpoint class_eqb (a b : list char) : bool :=
  match a, b with
  | [], [] => true
  | x :: a', y :: b' => (x =? y) && class_eqb a' b'
  | _, _ => false
  end.
Fixpoint pat_eqb (p q : pat) : bool :=
  match p, q with
  | [], [] => true
  | a :: p', b :: q' => class_eqb a b && pat_eqb p' q'
  | _, _ => false
  end.

(** the union of two patterns that differ in one place *)
Fixpoint pat_join (p q : pat) : option pat :=
  match p, q with
  | [], [] => Some []
  | a :: p', b :: q' =>
      if class_eqb a b then match pat_join p' q' with Some r => Some (a :: r) | None => None end
      else if pat_eqb p' q' then Some ((a ++ b) :: p') else None
  | _, _ => None
  end.

Fixpoint insert (b : branch) (l : list branch) : list branch :=
  match l with
  | [] => [b]
  | c :: l' => if sres_eqb (snd b) (snd c)
               then match pat_join (fst c) (fst b) with
                    | Some p => (p, snd b) :: l'
                    | None => c :: insert b l'
                    end
               else c :: insert b l'
  end.

Definition merge (l : list branch) : list branch := fold_left (fun acc b => insert b acc) l [].

Section Sym.
Context (tl : tailspec).

Definition nonempty_class (K : list char) (b : branch) : list branch :=
  match K with [] => [] | _ => [b] end.

Fixpoint sseq (f : pexp nt -> pat -> option (list branch)) (es : list (pexp nt)) (p : pat) : option (list branch) :=
  match es with
  | [] => Some [(p, SOk 0)]
  | e :: es' =>
      match f e p with
      | None => None
      | Some bs => collect (fun b => match snd b with
                                     | SFail => Some [b]
                                     | SOk k => after k (fst b) (sseq f es')
                                     | STail => match es' with [] => Some [b] | _ => None end
                                     end) bs
      end
  end.

Fixpoint sor (f : pexp nt -> pat -> option (list branch)) (es : list (pexp nt)) (p : pat) : option (list branch) :=
  match es with
  | [] => Some [(p, SFail)]
  | e :: es' =>
      match f e p with
      | None => None
      | Some bs => collect (fun b => match snd b with
                                     | SFail => sor f es' (fst b)
                                     | _ => Some [b]
                                     end) bs
      end
  end.

Fixpoint slong (f : pexp nt -> pat -> option (list branch)) (es : list (pexp nt)) (p : pat) (best : option nat)
    : option (list branch) :=
  match es with
  | [] => Some [(p, match best with Some k => SOk k | None => SFail end)]
  | e :: es' =>
      match f e p with
      | None => None
      | Some bs => collect (fun b => match snd b with
                                     | SFail => slong f es' (fst b) best
                                     | SOk k => slong f es' (fst b)
                                                  (match best with
                                                   | None => Some k
                                                   | Some k0 => if Nat.ltb k0 k then Some k else Some k0
                                                   end)
                                     | STail => None
                                     end) bs
      end
  end.

Definition snot (bs : list branch) : list branch :=
  map (fun b => (fst b, match snd b with SFail => SOk 0 | _ => SFail end)) bs.
Definition speek (bs : list branch) : list branch :=
  map (fun b => (fst b, match snd b with SFail => SFail | _ => SOk 0 end)) bs.

Fixpoint sx (fuel : nat) (e : pexp nt) (p : pat) : option (list branch) :=
  match fuel with
  | O => None
  | S n =>
      match e with
      | One chs =>
          match p with
          | [] => match tl with
                  | None => Some [([], SFail)]
                  | Some (K, _) =>
                      if forallb (fun c => negb (mem_char c chs)) K then Some [([], SFail)]
                      else if forallb (fun c => mem_char c chs) K then Some [([], STail)]
                      else None
                  end
          | K :: q =>
              let a := filter (fun c => mem_char c chs) K in
              let b := filter (fun c => negb (mem_char c chs)) K in
              Some (nonempty_class a (a :: q, SOk 1) ++ nonempty_class b (b :: q, SFail))
          end
      | Eof => Some [(p, match p, tl with [], None => SOk 0 | _, _ => SFail end)]
      | Null => Some [(p, SOk 0)]
      | Not e => option_map snot (sx n e p)
      | Peek e => option_map speek (sx n e p)
      | Or es => match sor (sx n) es p with Some bs => Some (merge bs) | None => None end
      | Longest es => slong (sx n) es p None
      | Seq e es => sseq (sx n) (e :: es) p
      | Repeat m e =>
          match sx n e p with
          | None => None
          | Some bs => collect (fun b => match snd b with
                                         | SFail => Some [(fst b, match m with O => SOk 0 | S _ => SFail end)]
                                         | SOk k => after k (fst b) (sx n (Repeat (Nat.pred m) e))
                                         | STail => None
                                         end) bs
          end
      | AndPeek e q =>
          match sx n e p with
          | None => None
          | Some bs => collect (fun b => match snd b with
                                         | SFail => Some [b]
                                         | SOk k => after k (fst b) (fun p' => option_map speek (sx n q p'))
                                         | STail => None
                                         end) bs
          end
      | AndNot e q =>
          match sx n e p with
          | None => None
          | Some bs => collect (fun b => match snd b with
                                         | SFail => Some [b]
                                         | SOk k => after k (fst b) (fun p' => option_map snot (sx n q p'))
                                         | STail => None
                                         end) bs
          end
      | NotThen q e =>
          match sx n q p with
          | None => None
          | Some bs => collect (fun b => match snd b with
                                         | SFail => sx n e (fst b)
                                         | _ => Some [(fst b, SFail)]
                                         end) bs
          end
      | Call x =>
          match p, tl with
          | [], Some (_, facts) =>
              match fact x facts with
              | Some true => Some [([], STail)]
              | Some false => Some [([], SFail)]
              | None => sx n (rule x) p
              end
          | _, _ => sx n (rule x) p
          end
      end
  end.

(** * Soundness *)

Definition tail_ok (T : list char) : Prop :=
  match tl with
  | None => T = []
  | Some (K, facts) => (exists c r, next_char T = Some (c, r) /\ In c K) /\
                       forall x b, fact x facts = Some b -> accepts x T = b
  end.

Definition inst (p : pat) (t : list char) : Prop :=
  exists u T, t = u ++ T /\ Forall2 (fun K c => In c K /\ is_comma c = false) p u /\ tail_ok T.

Definition result (e : option (list char)) (p : pat) (t : list char) (r : sres) : Prop :=
  match r with
  | SFail => e = None
  | SOk k => e = Some (skipn k t) /\ (k <= List.length p)%nat
  | STail => exists r, e = Some r
  end.

Definition sound (L : nat) (e : option (list char)) (t : list char) (bs : list branch) : Prop :=
  exists b, In b bs /\ List.length (fst b) = L /\ inst (fst b) t /\ result e (fst b) t (snd b).

Lemma collect_in {A B} (f : A -> option (list B)) l a x bs : collect f l = Some bs -> In a l -> f a = Some x -> incl x bs.
Proof.
  revert bs. induction l as [|c l IH]; intros bs H Hin Hf; [destruct Hin|]. cbn [collect] in H.
  destruct (f c) as [y|] eqn:Ec; [|discriminate]. destruct (collect f l) as [z|] eqn:El; [|discriminate].
  injection H as <-. destruct Hin as [->|Hin].
  - rewrite Hf in Ec. injection Ec as <-. apply incl_appl, incl_refl.
  - apply incl_appr, IH; auto.
Qed.

Lemma collect_some {A B} (f : A -> option (list B)) l a bs : collect f l = Some bs -> In a l -> exists x, f a = Some x /\ incl x bs.
Proof.
  intros H Hin. destruct (f a) as [x|] eqn:E; [exists x; split; [reflexivity|eapply collect_in; eassumption]|].
  exfalso. revert bs H. induction l as [|c l IH]; intros bs H; [destruct Hin|]. cbn [collect] in H. destruct Hin as [->|Hin].
  - rewrite E in H. discriminate.
  - destruct (f c); [|discriminate]. destruct (collect f l) eqn:El; [|discriminate]. exact (IH Hin _ eq_refl).
Qed.

Lemma sound_incl L e t bs bs' : sound L e t bs -> incl bs bs' -> sound L e t bs'.
Proof. intros (b & H1 & H2) Hi. exists b. split; [apply Hi, H1|exact H2]. Qed.

Lemma sound_one L e t b bs : In b bs -> List.length (fst b) = L -> inst (fst b) t -> result e (fst b) t (snd b) -> sound L e t bs.
Proof. intros. exists b. auto. Qed.

Lemma Forall2_len {A B} (R : A -> B -> Prop) l l' : Forall2 R l l' -> List.length l = List.length l'.
Proof. induction 1; cbn; congruence. Qed.

Lemma inst_length p t : inst p t -> (List.length p <= List.length t)%nat.
Proof.
  intros (u & T & -> & F & _). apply Forall2_len in F. rewrite app_length. lia.
Qed.

Lemma Forall2_skipn_ {A B} (R : A -> B -> Prop) k l l' : Forall2 R l l' -> Forall2 R (skipn k l) (skipn k l').
Proof. revert l l'. induction k; intros l l' F; [exact F|]. destruct F; cbn; [constructor|auto]. Qed.
Lemma Forall2_firstn_ {A B} (R : A -> B -> Prop) k l l' : Forall2 R l l' -> Forall2 R (firstn k l) (firstn k l').
Proof. revert l l'. induction k; intros l l' F; [constructor|]. destruct F; cbn; constructor; auto. Qed.

Lemma inst_skip k p t : inst p t -> (k <= List.length p)%nat -> inst (skipn k p) (skipn k t).
Proof.
  intros (u & T & -> & F & HT) Hk. exists (skipn k u), T. split; [|split; [apply Forall2_skipn_, F|exact HT]].
  apply Forall2_len in F. rewrite skipn_app. replace (k - List.length u)%nat with 0%nat by lia. reflexivity.
Qed.

Lemma inst_glue k p q t : inst p t -> (k <= List.length p)%nat -> inst q (skipn k t) -> inst (firstn k p ++ q) t.
Proof.
  intros (u & T & -> & F & HT) Hk (v & T' & E & G & HT'). exists (firstn k u ++ v), T'.
  pose proof (Forall2_len _ _ _ F) as L. split; [|split; [|exact HT']].
  - rewrite <- app_assoc, <- E. rewrite skipn_app. replace (k - List.length u)%nat with 0%nat by lia. cbn [skipn].
    rewrite app_assoc, firstn_skipn. reflexivity.
  - apply Forall2_app; [apply Forall2_firstn_, F|exact G].
Qed.

Lemma skipn_skipn_ {A} j k (l : list A) : skipn j (skipn k l) = skipn (k + j) l.
Proof.
  revert l. induction k as [|k IH]; intros l; [reflexivity|]. destruct l; cbn; [destruct j; reflexivity|apply IH].
Qed.

Lemma after_sound k p t f bs o : inst p t -> (k <= List.length p)%nat -> after k p f = Some bs ->
  (forall bs', f (skipn k p) = Some bs' -> sound (List.length p - k) o (skipn k t) bs') -> sound (List.length p) o t bs.
Proof.
  intros Hi Hk H Hf. unfold after in H. destruct (f (skipn k p)) as [bs'|]; [|discriminate]. injection H as <-.
  destruct (Hf bs' eq_refl) as ([q r] & Hin & Hl & Hq & Hr). cbn [fst snd] in *.
  exists (firstn k p ++ q, shift_res k r). split; [apply in_map_iff; exists (q, r); auto|]. cbn [fst snd].
  split; [rewrite app_length, firstn_length; lia|].
  split; [apply inst_glue; assumption|]. destruct r as [|j|]; cbn [shift_res result] in *; [exact Hr| |exact Hr].
  destruct Hr as [-> Hj]. split; [rewrite skipn_skipn_; reflexivity|].
  rewrite app_length, firstn_length. lia.
Qed.

Lemma class_eqb_eq a : forall b, class_eqb a b = true -> a = b.
Proof.
  induction a as [|x a IH]; intros [|y b]; cbn; try discriminate; [reflexivity|]. intros H.
  apply andb_true_iff in H as [H1 H2]. apply N.eqb_eq in H1. rewrite H1, (IH b H2). reflexivity.
Qed.
Lemma pat_eqb_eq a : forall b, pat_eqb a b = true -> a = b.
Proof.
  induction a as [|x a IH]; intros [|y b]; cbn; try discriminate; [reflexivity|]. intros H.
  apply andb_true_iff in H as [H1 H2]. apply class_eqb_eq in H1. rewrite H1, (IH b H2). reflexivity.
Qed.
Lemma sres_eqb_eq a b : sres_eqb a b = true -> a = b.
Proof. destruct a, b; cbn; try discriminate; try reflexivity. intros H. apply Nat.eqb_eq in H. congruence. Qed.

Lemma pat_join_spec p : forall q r u, pat_join p q = Some r ->
  Forall2 (fun K c => In c K /\ is_comma c = false) p u \/ Forall2 (fun K c => In c K /\ is_comma c = false) q u ->
  Forall2 (fun K c => In c K /\ is_comma c = false) r u.
Proof.
  induction p as [|a p IH]; intros [|b q] r u; cbn [pat_join]; try discriminate.
  - intros [= <-] [H|H]; exact H.
  - destruct (class_eqb a b) eqn:E.
    + apply class_eqb_eq in E. subst b. destruct (pat_join p q) as [r'|] eqn:Er; [|discriminate]. intros [= <-] [H|H];
        inversion H; subst; constructor; auto; eapply IH; eauto.
    + destruct (pat_eqb p q) eqn:Ep; [|discriminate]. apply pat_eqb_eq in Ep. subst q. intros [= <-] [H|H];
        inversion H; subst; constructor; auto; split; try apply in_or_app; tauto.
Qed.

Lemma pat_join_len p : forall q r, pat_join p q = Some r -> List.length r = List.length p /\ List.length r = List.length q.
Proof.
  induction p as [|a p IH]; intros [|b q] r; cbn [pat_join]; try discriminate; [intros [= <-]; auto|].
  destruct (class_eqb a b).
  - destruct (pat_join p q) as [r'|] eqn:E; [|discriminate]. intros [= <-]. destruct (IH _ _ E). cbn. auto.
  - destruct (pat_eqb p q) eqn:Ep; [|discriminate]. apply pat_eqb_eq in Ep. subst. intros [= <-]. cbn. auto.
Qed.

Lemma insert_sound L o t b l : sound L o t (b :: l) -> sound L o t (insert b l).
Proof.
  revert b. induction l as [|c l IH]; intros b H; cbn [insert]; [exact H|].
  assert (Hsplit : sound L o t [c] \/ sound L o t (b :: l)).
  { destruct H as (x & [<-|[<-|Hx]] & Hs).
    - right. exists b. split; [left; reflexivity|exact Hs].
    - left. exists c. split; [left; reflexivity|exact Hs].
    - right. exists x. split; [right; exact Hx|exact Hs]. }
  assert (Hskip : sound L o t (c :: insert b l)).
  { destruct Hsplit as [K|K]; [eapply sound_incl; [exact K|]; intros x [->|[]]; left; reflexivity|].
    eapply sound_incl; [exact (IH b K)|]. apply incl_tl, incl_refl. }
  destruct (sres_eqb (snd b) (snd c)) eqn:E; [|exact Hskip]. apply sres_eqb_eq in E.
  destruct (pat_join (fst c) (fst b)) as [p|] eqn:Ej; [|exact Hskip].
  destruct (pat_join_len _ _ _ Ej) as [L1 L2].
  destruct H as (x & [<-|[<-|Hx]] & Hl & (u & T & -> & F & HT) & Hr).
  - exists (p, snd b). split; [left; reflexivity|]. cbn [fst snd]. split; [congruence|]. split.
    + exists u, T. split; [reflexivity|]. split; [eapply pat_join_spec; [exact Ej|right; exact F]|exact HT].
    + destruct (snd b); cbn [result] in *; auto. rewrite L2. exact Hr.
  - exists (p, snd b). split; [left; reflexivity|]. cbn [fst snd]. split; [congruence|]. split.
    + exists u, T. split; [reflexivity|]. split; [eapply pat_join_spec; [exact Ej|left; exact F]|exact HT].
    + rewrite E. destruct (snd c); cbn [result] in *; auto. rewrite L1. exact Hr.
  - exists x. split; [right; exact Hx|]. split; [exact Hl|]. split; [exists u, T; auto|exact Hr].
Qed.

Lemma merge_sound L o t l : sound L o t l -> sound L o t (merge l).
Proof.
  unfold merge. intros H. enough (G : forall l acc, sound L o t (l ++ acc) -> sound L o t (fold_left (fun acc b => insert b acc) l acc)).
  { apply G. rewrite app_nil_r. exact H. }
  clear l H. induction l as [|b l IH]; intros acc H; cbn [fold_left]; [exact H|]. apply IH.
  assert (D : sound L o t l \/ sound L o t (b :: acc)).
  { destruct H as (x & Hx & Hs). cbn [app In] in Hx. destruct Hx as [<-|Hx]; [right; exists b; split; [left; reflexivity|exact Hs]|].
    apply in_app_or in Hx as [Hx|Hx]; [left; exists x; auto|right; exists x; split; [right; exact Hx|exact Hs]]. }
  destruct D as [D|D]; [eapply sound_incl; [exact D|apply incl_appl, incl_refl]|].
  eapply sound_incl; [apply insert_sound, D|apply incl_appr, incl_refl].
Qed.

Section Step.
Context (n : nat) (IH : forall e p t bs, wfe e = true -> inst p t -> sx n e p = Some bs -> sound (List.length p) (ev e t) t bs).

Lemma sseq_sound es : forall p t bs, forallb wfe es = true -> inst p t -> sseq (sx n) es p = Some bs -> sound (List.length p) (evs es t) t bs.
Proof.
  induction es as [|e es IHes]; intros p t bs Hw Hi; cbn [sseq evs].
  - intros [= <-]. apply (sound_one _ _ _ (p, SOk 0)); [left; reflexivity|reflexivity|exact Hi|]. cbn. split; [reflexivity|lia].
  - cbn [forallb] in Hw. apply andb_true_iff in Hw as [He Hes].
    destruct (sx n e p) as [bs0|] eqn:E0; [|discriminate]. intros H.
    destruct (IH e p t bs0 He Hi E0) as (b & Hin & Hl & Hb & Hr).
    destruct (collect_some _ _ _ _ H Hin) as (x & Hx & Hincl). eapply sound_incl; [|exact Hincl].
    destruct b as [bp br]; cbn [fst snd] in *. destruct br as [|k|]; cbn [result] in Hr.
    + injection Hx as <-. rewrite Hr. eapply sound_one; [left; reflexivity|exact Hl|exact Hb|]. cbn; reflexivity.
    + destruct Hr as [-> Hk]. rewrite <- Hl. eapply after_sound; [exact Hb|exact Hk|exact Hx|].
      intros bs' H'. rewrite <- skipn_length. eapply IHes; [exact Hes|apply inst_skip; assumption|exact H'].
    + destruct es as [|e' es]; [|discriminate]. injection Hx as <-. destruct Hr as (r & ->). cbn [evs].
      eapply sound_one; [left; reflexivity|exact Hl|exact Hb|]. cbn; exists r; reflexivity.
Qed.

Lemma sor_sound es : forall p t bs, forallb wfe es = true -> inst p t -> sor (sx n) es p = Some bs -> sound (List.length p) (evor es t) t bs.
Proof.
  induction es as [|e es IHes]; intros p t bs Hw Hi; cbn [sor evor].
  - intros [= <-]. apply (sound_one _ _ _ (p, SFail)); [left; reflexivity|reflexivity|exact Hi|reflexivity].
  - cbn [forallb] in Hw. apply andb_true_iff in Hw as [He Hes].
    destruct (sx n e p) as [bs0|] eqn:E0; [|discriminate]. intros H.
    destruct (IH e p t bs0 He Hi E0) as (b & Hin & Hl & Hb & Hr).
    destruct (collect_some _ _ _ _ H Hin) as (x & Hx & Hincl). eapply sound_incl; [|exact Hincl].
    destruct b as [bp br]; cbn [fst snd] in *. destruct br as [|k|]; cbn [result] in Hr.
    + rewrite Hr, <- Hl. eapply IHes; [exact Hes|exact Hb|exact Hx].
    + injection Hx as <-. destruct Hr as [-> Hk]. eapply sound_one; [left; reflexivity|exact Hl|exact Hb|]. cbn; split; [reflexivity|exact Hk].
    + injection Hx as <-. destruct Hr as (r & ->). eapply sound_one; [left; reflexivity|exact Hl|exact Hb|]. cbn; exists r; reflexivity.
Qed.

Lemma blen_skipn_lt t k k0 : (k <= List.length t)%nat -> (blen (skipn k t) <? blen (skipn k0 t)) = Nat.ltb k0 k.
Proof.
  intros Hk. destruct (Nat.ltb_spec k0 k) as [L|L].
  - apply N.ltb_lt. replace (skipn k t) with (skipn (k - k0) (skipn k0 t)) by (rewrite skipn_skipn_; f_equal; lia).
    rewrite <- (firstn_skipn (k - k0) (skipn k0 t)) at 2. rewrite blen_app.
    enough (0 < blen (firstn (k - k0) (skipn k0 t))) by lia.
    pose proof (length_blen (firstn (k - k0) (skipn k0 t))) as Q. rewrite firstn_length, skipn_length in Q. lia.
  - apply N.ltb_ge. replace (skipn k0 t) with (skipn (k0 - k) (skipn k t)) by (rewrite skipn_skipn_; f_equal; lia).
    rewrite <- (firstn_skipn (k0 - k) (skipn k t)) at 2. rewrite blen_app. lia.
Qed.

Lemma slong_sound es : forall p t best bs, forallb wfe es = true -> inst p t ->
  (forall k, best = Some k -> (k <= List.length p)%nat) ->
  slong (sx n) es p best = Some bs -> sound (List.length p) (evlong es t (option_map (fun k => skipn k t) best)) t bs.
Proof.
  induction es as [|e es IHes]; intros p t best bs Hw Hi Hbest; cbn [slong evlong].
  - intros [= <-]. eapply sound_one; [left; reflexivity|reflexivity|exact Hi|]. destruct best as [k|]; cbn; [split; auto|reflexivity].
  - cbn [forallb] in Hw. apply andb_true_iff in Hw as [He Hes].
    destruct (sx n e p) as [bs0|] eqn:E0; [|discriminate]. intros H.
    destruct (IH e p t bs0 He Hi E0) as (b & Hin & Hl & Hb & Hr).
    destruct (collect_some _ _ _ _ H Hin) as (x & Hx & Hincl). eapply sound_incl; [|exact Hincl].
    destruct b as [bp br]; cbn [fst snd] in *. destruct br as [|k|]; cbn [result] in Hr; [| |discriminate].
    + rewrite Hr, <- Hl. eapply IHes; [exact Hes|exact Hb| |exact Hx]. rewrite Hl. exact Hbest.
    + destruct Hr as [-> Hk]. pose proof (inst_length _ _ Hb) as Ht. rewrite <- Hl. destruct best as [k0|]; cbn [option_map].
      * rewrite blen_skipn_lt by lia. destruct (Nat.ltb k0 k).
        { apply (IHes _ _ (Some k)); [exact Hes|exact Hb| |exact Hx]. intros ? [= <-]. exact Hk. }
        { apply (IHes _ _ (Some k0)); [exact Hes|exact Hb| |exact Hx]. rewrite Hl. exact Hbest. }
      * apply (IHes _ _ (Some k)); [exact Hes|exact Hb| |exact Hx]. intros ? [= <-]. exact Hk.
Qed.
End Step.

Lemma inst_next K q t : inst (K :: q) t -> exists c r, t = c :: r /\ next_char t = Some (c, r) /\ In c K /\ is_comma c = false /\ inst q r.
Proof.
  intros (u & T & -> & F & HT). inversion F as [|? c ? u' [H1 H2] F']; subst. exists c, (u' ++ T).
  split; [reflexivity|]. split; [cbn [app next_char]; rewrite H2; reflexivity|]. split; [exact H1|]. split; [exact H2|].
  exists u', T. auto.
Qed.

Lemma inst_cons K q c r : In c K -> is_comma c = false -> inst q r -> inst (K :: q) (c :: r).
Proof. intros H1 H2 (u & T & -> & F & HT). exists (c :: u), T. split; [reflexivity|]. split; [constructor; auto|exact HT]. Qed.

Lemma snot_sound L o t bs : sound L o t bs -> sound L (match o with Some _ => None | None => Some t end) t (snot bs).
Proof.
  intros (b & Hin & Hl & Hb & Hr). exists (fst b, match snd b with SFail => SOk 0 | _ => SFail end).
  split; [apply in_map_iff; exists b; auto|]. cbn [fst snd]. split; [exact Hl|]. split; [exact Hb|].
  destruct (snd b); cbn [result] in *.
  - rewrite Hr. split; [reflexivity|lia].
  - destruct Hr as [-> _]. reflexivity.
  - destruct Hr as (r & ->). reflexivity.
Qed.
Lemma speek_sound L o t bs : sound L o t bs -> sound L (match o with Some _ => Some t | None => None end) t (speek bs).
Proof.
  intros (b & Hin & Hl & Hb & Hr). exists (fst b, match snd b with SFail => SFail | _ => SOk 0 end).
  split; [apply in_map_iff; exists b; auto|]. cbn [fst snd]. split; [exact Hl|]. split; [exact Hb|].
  destruct (snd b); cbn [result] in *.
  - rewrite Hr. reflexivity.
  - destruct Hr as [-> _]. split; [reflexivity|lia].
  - destruct Hr as (r & ->). split; [reflexivity|lia].
Qed.

Lemma fact_call x facts b T : tl = Some (fst facts, snd facts) -> fact x (snd facts) = Some b -> tail_ok T -> accepts x T = b.
Proof. intros E Hf HT. unfold tail_ok in HT. rewrite E in HT. destruct HT as [_ HT]. apply HT, Hf. Qed.

Lemma inst_nil t : inst [] t <-> tail_ok t.
Proof.
  split.
  - intros (u & T & -> & F & HT). inversion F; subst. exact HT.
  - intros HT. exists [], t. split; [reflexivity|]. split; [constructor|exact HT].
Qed.

Lemma sx_sound n : forall e p t bs, wfe e = true -> inst p t -> sx n e p = Some bs -> sound (List.length p) (ev e t) t bs.
Proof.
  induction n as [|n IH]; intros e p t bs Hw Hi; [discriminate|]. pose proof (wfe_inv e Hw) as Hi'.
  destruct e as [chs| | |e|e|es|es|e es|m e|e q|e q|q e|x]; cbn [sx].
  - rewrite ev_One. destruct p as [|K q].
    + pose proof (proj1 (inst_nil t) Hi) as HT. unfold tail_ok in HT. destruct tl as [[K facts]|] eqn:Etl.
      * destruct HT as [(c & r & -> & Hc) _].
        destruct (forallb (fun c => negb (mem_char c chs)) K) eqn:EK.
        { rewrite forallb_forall in EK. specialize (EK c Hc). apply negb_true_iff in EK. rewrite EK. intros [= <-].
          eapply sound_one; [left; reflexivity|reflexivity|exact Hi|reflexivity]. }
        destruct (forallb (fun c => mem_char c chs) K) eqn:EK'; [|discriminate].
        rewrite forallb_forall in EK'. rewrite (EK' c Hc). intros [= <-].
        eapply sound_one; [left; reflexivity|reflexivity|exact Hi|]. exists r. reflexivity.
      * subst t. intros [= <-]. eapply sound_one; [left; reflexivity|reflexivity|exact Hi|reflexivity].
    + intros [= <-]. destruct (inst_next _ _ _ Hi) as (c & r & -> & -> & Hc & Hcc & Hq).
      destruct (mem_char c chs) eqn:E.
      * assert (Ha : In c (filter (fun c => mem_char c chs) K)) by (apply filter_In; auto).
        set (a := filter _ K) in *.
        apply (sound_one _ _ _ (a :: q, SOk 1)); [apply in_or_app; left; destruct a; [destruct Ha|left; reflexivity]|reflexivity| |].
        { apply inst_cons; auto. } { cbn. split; [reflexivity|lia]. }
      * assert (Ha : In c (filter (fun c => negb (mem_char c chs)) K)) by (apply filter_In; rewrite E; auto).
        set (b := filter (fun c => negb (mem_char c chs)) K) in *.
        apply (sound_one _ _ _ (b :: q, SFail)); [apply in_or_app; right; destruct b; [destruct Ha|left; reflexivity]|reflexivity| |].
        { apply inst_cons; auto. } { reflexivity. }
  - rewrite ev_Eof. intros [= <-]. eapply sound_one; [left; reflexivity|reflexivity|exact Hi|]. cbn [fst snd].
    destruct p as [|K p].
    + pose proof (proj1 (inst_nil t) Hi) as HT. unfold tail_ok in HT. destruct tl as [[K facts]|].
      * destruct HT as [(c & r & Hn & _) _]. destruct t; [discriminate|]. reflexivity.
      * subst t. split; [reflexivity|cbn; lia].
    + apply inst_next in Hi as (c & r & -> & _). reflexivity.
  - rewrite ev_Null. intros [= <-]. eapply sound_one; [left; reflexivity|reflexivity|exact Hi|]. split; [reflexivity|cbn; lia].
  - rewrite ev_Not by exact Hw. destruct (sx n e p) as [bs0|] eqn:E; [|discriminate]. intros [= <-].
    apply snot_sound. eapply IH; eassumption.
  - rewrite ev_Peek by exact Hw. destruct (sx n e p) as [bs0|] eqn:E; [|discriminate]. intros [= <-].
    apply speek_sound. eapply IH; eassumption.
  - rewrite ev_Or by exact Hw. destruct (sor (sx n) es p) as [bs0|] eqn:E; [|discriminate]. intros [= <-].
    apply merge_sound. eapply sor_sound; eassumption.
  - rewrite ev_Longest by exact Hw. intros H. apply (slong_sound n IH es p t None bs Hi' Hi); [discriminate|exact H].
  - rewrite ev_Seq by exact Hw. intros H. apply (sseq_sound n IH (e :: es) p t bs); [cbn; destruct Hi' as [-> ->]; reflexivity|exact Hi|exact H].
  - rewrite ev_Repeat by exact Hw. destruct Hi' as [Hn He].
    destruct (sx n e p) as [bs0|] eqn:E0; [|discriminate]. intros H.
    destruct (IH e p t bs0 He Hi E0) as (b & Hin & Hl & Hb & Hr).
    destruct (collect_some _ _ _ _ H Hin) as (x & Hx & Hincl). eapply sound_incl; [|exact Hincl].
    destruct b as [bp br]; cbn [fst snd] in *. destruct br as [|k|]; cbn [result] in Hr; [| |discriminate].
    + injection Hx as <-. rewrite Hr. eapply sound_one; [left; reflexivity|exact Hl|exact Hb|].
      destruct m; cbn; [split; [reflexivity|lia]|reflexivity].
    + destruct Hr as [-> Hk]. rewrite <- Hl. eapply after_sound; [exact Hb|exact Hk|exact Hx|].
      intros bs' H'. rewrite <- skipn_length. eapply IH; [|apply inst_skip; assumption|exact H'].
      exact Hw.
  - rewrite ev_AndPeek by exact Hw. destruct Hi' as [He Hq].
    destruct (sx n e p) as [bs0|] eqn:E0; [|discriminate]. intros H.
    destruct (IH e p t bs0 He Hi E0) as (b & Hin & Hl & Hb & Hr).
    destruct (collect_some _ _ _ _ H Hin) as (x & Hx & Hincl). eapply sound_incl; [|exact Hincl].
    destruct b as [bp br]; cbn [fst snd] in *. destruct br as [|k|]; cbn [result] in Hr; [| |discriminate].
    + injection Hx as <-. rewrite Hr. eapply sound_one; [left; reflexivity|exact Hl|exact Hb|]. cbn; reflexivity.
    + destruct Hr as [-> Hk]. rewrite <- Hl. eapply after_sound; [exact Hb|exact Hk|exact Hx|].
      intros bs' H'. cbn beta in H'. destruct (sx n q (skipn k bp)) as [bq|] eqn:Eq; [|discriminate]. injection H' as <-.
      apply speek_sound. rewrite <- skipn_length. eapply IH; [exact Hq|apply inst_skip; assumption|exact Eq].
  - rewrite ev_AndNot by exact Hw. destruct Hi' as [He Hq].
    destruct (sx n e p) as [bs0|] eqn:E0; [|discriminate]. intros H.
    destruct (IH e p t bs0 He Hi E0) as (b & Hin & Hl & Hb & Hr).
    destruct (collect_some _ _ _ _ H Hin) as (x & Hx & Hincl). eapply sound_incl; [|exact Hincl].
    destruct b as [bp br]; cbn [fst snd] in *. destruct br as [|k|]; cbn [result] in Hr; [| |discriminate].
    + injection Hx as <-. rewrite Hr. eapply sound_one; [left; reflexivity|exact Hl|exact Hb|]. cbn; reflexivity.
    + destruct Hr as [-> Hk]. rewrite <- Hl. eapply after_sound; [exact Hb|exact Hk|exact Hx|].
      intros bs' H'. cbn beta in H'. destruct (sx n q (skipn k bp)) as [bq|] eqn:Eq; [|discriminate]. injection H' as <-.
      apply snot_sound. rewrite <- skipn_length. eapply IH; [exact Hq|apply inst_skip; assumption|exact Eq].
  - rewrite ev_NotThen by exact Hw. destruct Hi' as [Hq He].
    destruct (sx n q p) as [bs0|] eqn:E0; [|discriminate]. intros H.
    destruct (IH q p t bs0 Hq Hi E0) as (b & Hin & Hl & Hb & Hr).
    destruct (collect_some _ _ _ _ H Hin) as (x & Hx & Hincl). eapply sound_incl; [|exact Hincl].
    destruct b as [bp br]; cbn [fst snd] in *. destruct br as [|k|]; cbn [result] in Hr.
    + rewrite Hr, <- Hl. eapply IH; [exact He|exact Hb|exact Hx].
    + injection Hx as <-. destruct Hr as [-> _]. eapply sound_one; [left; reflexivity|exact Hl|exact Hb|reflexivity].
    + injection Hx as <-. destruct Hr as (r & ->). eapply sound_one; [left; reflexivity|exact Hl|exact Hb|reflexivity].
  - rewrite ev_Call.
    assert (Hgen : sx n (rule x) p = Some bs -> sound (List.length p) (ev (rule x) t) t bs) by (apply IH; [apply wfe_rule|exact Hi]).
    destruct p as [|K p]; [|exact Hgen]. destruct tl as [[K facts]|] eqn:Etl; [|exact Hgen].
    destruct (fact x facts) as [b|] eqn:Ef; [|exact Hgen].
    pose proof (proj1 (inst_nil t) Hi) as HT. unfold tail_ok in HT. rewrite Etl in HT. destruct HT as [_ HT].
    specialize (HT x b Ef). unfold accepts in HT. rewrite ev_Call in HT. destruct b; intros H; injection H as <-.
    + destruct (ev (rule x) t) as [r|] eqn:Er; [|discriminate]. eapply sound_one; [left; reflexivity|reflexivity|exact Hi|].
      exists r. reflexivity.
    + destruct (ev (rule x) t) as [r|] eqn:Er; [discriminate|]. eapply sound_one; [left; reflexivity|reflexivity|exact Hi|reflexivity].
Qed.
End Sym.

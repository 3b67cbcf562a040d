(** PegSim.v -- the rules see a text only through its spelling: commas are
    invisible (except for whether the text ends with one) and [h] is the
    apostrophe.  Simulation lemma, by induction on the fuel. *)
From Verif Require Import Base Peg Rules RulesApi PegMeta RulesTotal PegChars.
From Coq Require Import Lia Arith.

(** [h] (104) is read as the apostrophe (39). *)
Definition norm (c : char) : char := if c =? 104 then 39 else c.
Definition ends_comma (t : list char) : bool := is_comma (last t 0).

(** Letters that no rule tells apart: [h] and the apostrophe, and the two cases
    of a consonant or of [y]. *)
Definition twins : list (char * char) := (104, 39) :: map (fun c => (c, c - 32)) (lit "bcdfgjklmnprstvxzy").

Definition twin (c c' : char) : Prop :=
  c = c' \/ exists p, In p twins /\ (c = fst p \/ c = snd p) /\ (c' = fst p \/ c' = snd p).

Lemma twin_fun {A} (f : char -> A) : Forall (fun p => f (fst p) = f (snd p)) twins -> forall c c', twin c c' -> f c = f c'.
Proof.
  intros F c c' [->|(p & Hp & Hc & Hc')]; [reflexivity|]. rewrite Forall_forall in F. specialize (F p Hp).
  destruct Hc as [->| ->], Hc' as [->| ->]; congruence.
Qed.

(** What [nu] may identify: only twins. *)
Definition good_norm (nu : char -> char) : Prop := forall c c', nu c = nu c' -> twin c c'.

Lemma good_norm_norm : good_norm norm.
Proof.
  assert (T : forall c c', (c = 104 \/ c = 39) -> (c' = 104 \/ c' = 39) -> twin c c').
  { intros c c' H H'. right. exists (104, 39). split; [left; reflexivity|]. split; assumption. }
  intros c c'. unfold norm. destruct (N.eqb_spec c 104), (N.eqb_spec c' 104); subst; intros E; subst; solve [apply T; auto | left; reflexivity].
Qed.
Lemma good_norm_id : good_norm (fun c => c).
Proof. intros c c' ->. left; reflexivity. Qed.

Definition spell_by (nu : char -> char) (t : list char) : list char :=
  map nu (filter (fun c => negb (is_comma c)) t).
Definition sim_by (nu : char -> char) (t t' : list char) : Prop :=
  spell_by nu t = spell_by nu t' /\ ends_comma t = ends_comma t'.

Section Norm.
Context (nu : char -> char) (Hnu : good_norm nu).
Local Notation spell := (spell_by nu).
Local Notation sim := (sim_by nu).

Lemma spell_app a b : spell (a ++ b) = spell a ++ spell b.
Proof. unfold spell_by. rewrite filter_app, map_app. reflexivity. Qed.

Lemma sim_sym a b : sim a b -> sim b a.
Proof. intros [H1 H2]. split; congruence. Qed.
Lemma sim_refl a : sim a a.
Proof. split; reflexivity. Qed.
Lemma sim_trans a b c : sim a b -> sim b c -> sim a c.
Proof. intros [H1 H2] [H3 H4]. split; congruence. Qed.

Lemma spell_next t : match next_char t with
  | Some (c, u) => spell t = nu c :: spell u /\ (u <> [] -> ends_comma t = ends_comma u) /\ is_comma c = false
  | None => spell t = [] /\ (ends_comma t = false <-> t = [])
  end.
Proof.
  induction t as [|a t IH]; cbn [next_char].
  - split; [reflexivity|]. split; reflexivity.
  - destruct (is_comma a) eqn:E.
    + unfold spell_by in *. cbn [filter]. rewrite E. cbn [negb].
      destruct (next_char t) as [[c u]|] eqn:En.
      * destruct IH as (H1 & H2 & H3). split; [exact H1|]. split; [|exact H3]. intros Hu.
        rewrite <- H2 by exact Hu. destruct t as [|b t]; [discriminate|]. reflexivity.
      * destruct IH as (H1 & H2). split; [exact H1|]. destruct t as [|b t].
        { cbn in *. unfold ends_comma. cbn. rewrite E. split; [discriminate|discriminate]. }
        { change (ends_comma (a :: b :: t)) with (ends_comma (b :: t)). rewrite H2. split; discriminate. }
    + split; [|split].
      * unfold spell_by. cbn [filter]. rewrite E. reflexivity.
      * intros Hu. destruct t; [congruence|reflexivity].
      * exact E.
Qed.

Lemma ends_comma_next t c u : next_char t = Some (c, u) -> ends_comma t = ends_comma u.
Proof.
  intros H. pose proof (spell_next t) as S. rewrite H in S. destruct S as (_ & S & Hc).
  destruct u as [|b u]; [|apply S; discriminate].
  apply next_char_suffix in H as (m & -> & _ & _). unfold ends_comma. rewrite last_last. rewrite Hc. reflexivity.
Qed.

Lemma sim_next t t' : sim t t' ->
  match next_char t, next_char t' with
  | Some (c, u), Some (c', u') => nu c = nu c' /\ sim u u'
  | None, None => t = [] <-> t' = []
  | _, _ => False
  end.
Proof.
  intros [H1 H2]. pose proof (spell_next t) as A. pose proof (spell_next t') as B.
  destruct (next_char t) as [[c u]|] eqn:E; destruct (next_char t') as [[c' u']|] eqn:E'.
  - destruct A as (A & _ & _). destruct B as (B & _ & _). rewrite A, B in H1. injection H1 as Hc Hs.
    split; [exact Hc|]. split; [exact Hs|].
    rewrite <- (ends_comma_next _ _ _ E), <- (ends_comma_next _ _ _ E'). exact H2.
  - destruct A as (A & _ & _). destruct B as (B & _). congruence.
  - destruct B as (B & _ & _). destruct A as (A & _). congruence.
  - destruct A as (_ & A). destruct B as (_ & B). rewrite H2 in A. tauto.
Qed.

Lemma sim_nil t t' : sim t t' -> (t = [] <-> t' = []).
Proof.
  intros H. pose proof (sim_next t t' H) as S.
  destruct (next_char t) as [[c u]|] eqn:E; destruct (next_char t') as [[c' u']|] eqn:E'; try tauto.
  split; intros ->; discriminate.
Qed.

(** [reach t r]: [r] is [t], or follows a char of [t] that is not a comma. *)
Definition reach (t r : list char) : Prop :=
  t = r \/ exists m c, t = m ++ c :: r /\ is_comma c = false.

Lemma reach_trans a b c : reach a b -> reach b c -> reach a c.
Proof.
  intros [->|(m & x & -> & Hx)]; [tauto|].
  intros [->|(m' & y & -> & Hy)]; right; [exists m, x; auto|].
  exists (m ++ x :: m'), y. rewrite <- app_assoc. split; [reflexivity|exact Hy].
Qed.

Definition weight (t : list char) : nat := List.length (spell t).

Lemma reach_order t r r0 : reach t r -> reach t r0 ->
  (blen r <? blen r0) = Nat.ltb (weight r) (weight r0).
Proof.
  intros H H0.
  assert (T : reach r r0 \/ reach r0 r).
  { destruct H as [<-|(m & c & -> & Hc)]; [left; exact H0|].
    destruct H0 as [<-|(m0 & c0 & E & Hc0)]; [right; right; exists m, c; auto|].
    revert m0 E. induction m as [|a m IH]; intros [|a0 m0] E; cbn in E.
    - injection E as -> ->. left; left; reflexivity.
    - injection E as -> ->. left; right. exists m0, c0; auto.
    - injection E as -> <-. right; right. exists m, c; auto.
    - injection E as -> E. eapply IH; exact E. }
  assert (W : forall a b, reach a b -> a = b \/ (blen b < blen a /\ (weight b < weight a)%nat)).
  { clear. intros a b [->|(m & c & -> & Hc)]; [left; reflexivity|right].
    rewrite blen_app, blen_cons. pose proof (clen_pos c). split; [lia|].
    unfold weight. rewrite spell_app, app_length. unfold spell_by at 3. cbn [filter]. rewrite Hc.
    cbn [negb map List.length]. fold (spell_by nu b). lia. }
  destruct T as [T|T]; apply W in T as [->|[T1 T2]].
  - rewrite N.ltb_irrefl, Nat.ltb_irrefl. reflexivity.
  - destruct (N.ltb_spec (blen r) (blen r0)); destruct (Nat.ltb_spec (weight r) (weight r0)); lia || reflexivity.
  - rewrite N.ltb_irrefl, Nat.ltb_irrefl. reflexivity.
  - destruct (N.ltb_spec (blen r) (blen r0)); destruct (Nat.ltb_spec (weight r) (weight r0)); lia || reflexivity.
Qed.

Ltac outs := split; (repeat match goal with |- ?f _ _ _ => unfold f end); cbn beta iota;
  repeat match goal with |- context [match ?x with _ => _ end] => destruct x end; exact I.

Section Sim.
Context {nt : Type} (rule : nt -> pexp nt).

(** every [one_of] set contains a letter exactly when it contains its twin *)
Fixpoint closed (e : pexp nt) : bool :=
  match e with
  | One chs => forallb (fun p => Bool.eqb (mem_char (fst p) chs) (mem_char (snd p) chs)) twins
  | Eof | Null | Call _ => true
  | Not e | Peek e => closed e
  | Or es | Longest es => forallb closed es
  | Seq e es => closed e && forallb closed es
  | Repeat _ e => closed e
  | AndPeek e p | AndNot e p | NotThen p e => closed e && closed p
  end.

Lemma closed_mem chs c c' : forallb (fun p => Bool.eqb (mem_char (fst p) chs) (mem_char (snd p) chs)) twins = true ->
  nu c = nu c' -> mem_char c chs = mem_char c' chs.
Proof.
  intros H E. apply (twin_fun (fun c => mem_char c chs)); [|apply Hnu, E].
  apply Forall_forall. intros p Hp. rewrite forallb_forall in H. apply Bool.eqb_prop, H, Hp.
Qed.

Definition related (t : list char) (p p' : pr) : Prop :=
  match p, p' with
  | PFail, PFail => True
  | POk r, POk r' => sim r r' /\ reach t r
  | POut, _ | _, POut => True
  | _, _ => False
  end.

Hypothesis HC : forall x, closed (rule x) = true.

Lemma prun_sim n : forall e t t', closed e = true -> sim t t' ->
  related t (prun rule n e t) (prun rule n e t') /\ related t' (prun rule n e t') (prun rule n e t).
Proof.
  induction n as [|n IH]; intros e t t' He Hs; [split; exact I|].
  assert (R0 : forall t, reach t t) by (intros; left; reflexivity).
  assert (Hseq : forall es t0 t0' t t', forallb closed es = true -> sim t t' -> reach t0 t -> reach t0' t' ->
    related t0 (pseq (prun rule n) es t) (pseq (prun rule n) es t') /\
    related t0' (pseq (prun rule n) es t') (pseq (prun rule n) es t)).
  { induction es as [|a es IHes]; intros t0 t0' t1 t1' H Hs1 R R'; cbn [pseq].
    - split; split; auto. apply sim_sym; exact Hs1.
    - cbn [forallb] in H. apply andb_true_iff in H as [Ha Hes].
      destruct (IH a t1 t1' Ha Hs1) as [I1 I2].
      destruct (prun rule n a t1) as [| |r], (prun rule n a t1') as [| |r']; cbn in I1, I2;
        try (split; exact I); try contradiction.
      + split; [exact I|]. cbn. destruct (pseq (prun rule n) es r'); exact I.
      + split; cbn; destruct (pseq (prun rule n) es r); exact I.
      + apply IHes; [exact Hes|tauto| |]; eapply reach_trans; [exact R|tauto|exact R'|tauto]. }
  destruct e as [chs| | |e|e|es|es|e es|min e|e p|e p|p e|x]; cbn [closed] in He; cbn [prun].
  - pose proof (sim_next t t' Hs) as N1.
    destruct (next_char t) as [[c u]|] eqn:E; destruct (next_char t') as [[c' u']|] eqn:E'; try contradiction;
      [|split; exact I].
    destruct N1 as [Nc Nu]. rewrite (closed_mem chs c c' He Nc).
    destruct (mem_char c' chs); [|split; exact I].
    apply next_char_suffix in E as (m & -> & _ & Hc). apply next_char_suffix in E' as (m' & -> & _ & Hc').
    split; (split; [|right; eauto]); [exact Nu|apply sim_sym; exact Nu].
  - pose proof (sim_nil t t' Hs) as N1. destruct t, t'; try (split; exact I);
      try (split; split; [apply sim_refl|left; reflexivity|apply sim_refl|left; reflexivity]);
      exfalso; destruct N1 as [N1 N2]; try (discriminate (N1 eq_refl)); discriminate (N2 eq_refl).
  - split; split; auto. apply sim_sym; exact Hs.
  - destruct (IH e t t' He Hs) as [I1 I2].
    destruct (prun rule n e t), (prun rule n e t'); cbn in I1, I2; try contradiction; try (split; exact I).
    split; split; auto. apply sim_sym; exact Hs.
  - destruct (IH e t t' He Hs) as [I1 I2].
    destruct (prun rule n e t), (prun rule n e t'); cbn in I1, I2; try contradiction; try (split; exact I).
    split; split; auto. apply sim_sym; exact Hs.
  - induction es as [|a es IHes]; cbn [por]; [split; exact I|].
    cbn [forallb] in He. apply andb_true_iff in He as [Ha Hes].
    destruct (IH a t t' Ha Hs) as [I1 I2].
    destruct (prun rule n a t), (prun rule n a t'); cbn in I1, I2; try contradiction; try (split; exact I);
      try outs.
    + apply IHes; exact Hes.
    + split; assumption.
  - assert (HL : forall b b', match b, b' with
                   | None, None => True
                   | Some r, Some r' => sim r r' /\ reach t r /\ reach t' r'
                   | _, _ => False end ->
        related t (plongest (prun rule n) es t b) (plongest (prun rule n) es t' b') /\
        related t' (plongest (prun rule n) es t' b') (plongest (prun rule n) es t b)).
    2: { apply HL. exact I. }
    induction es as [|a es IHes]; intros b b' Hb; cbn [plongest].
    + destruct b, b'; try contradiction; [|split; exact I]. split; split; try tauto. apply sim_sym; tauto.
    + cbn [forallb] in He. apply andb_true_iff in He as [Ha Hes]. specialize (IHes Hes).
      destruct (IH a t t' Ha Hs) as [I1 I2].
      destruct (prun rule n a t) as [| |r], (prun rule n a t') as [| |r']; cbn in I1, I2; try contradiction;
        try (split; exact I);
        try outs.
      * apply IHes; exact Hb.
      * destruct b as [r0|], b' as [r0'|]; try contradiction.
        -- destruct Hb as (B1 & B2 & B3).
           rewrite (reach_order t r r0) by tauto. rewrite (reach_order t' r' r0') by tauto.
           unfold weight. rewrite (proj1 (proj1 I1)), (proj1 B1).
           destruct (Nat.ltb _ _).
           ++ apply IHes. tauto.
           ++ apply IHes. tauto.
        -- apply IHes. tauto.
  - apply andb_true_iff in He as [He Hes]. destruct (IH e t t' He Hs) as [I1 I2].
    destruct (prun rule n e t) as [| |r], (prun rule n e t') as [| |r']; cbn in I1, I2; try contradiction;
      try (split; exact I); try outs.
    apply Hseq; tauto.
  - assert (HR : forall k k' num t0 t0', sim t0 t0' -> reach t t0 -> reach t' t0' ->
      related t (prep (prun rule n e) k min t0 num) (prep (prun rule n e) k' min t0' num) /\
      related t' (prep (prun rule n e) k' min t0' num) (prep (prun rule n e) k min t0 num)).
    { induction k as [|k IHk]; intros k' num t0 t0' H0 R1 R2.
      - cbn [prep]. outs.
      - destruct k' as [|k']; cbn [prep].
        + outs.
        + destruct (IH e t0 t0' He H0) as [I1 I2].
          destruct (prun rule n e t0) as [| |r], (prun rule n e t0') as [| |r']; cbn in I1, I2; try contradiction;
            try (split; exact I);
            try outs.
          * destruct (Nat.ltb num min); [split; exact I|]. split; split; auto. apply sim_sym; exact H0.
          * apply IHk; [tauto| |]; eapply reach_trans; [exact R1|tauto|exact R2|tauto]. }
    apply HR; auto.
  - apply andb_true_iff in He as [He Hp]. destruct (IH e t t' He Hs) as [I1 I2].
    destruct (prun rule n e t) as [| |r], (prun rule n e t') as [| |r']; cbn in I1, I2; try contradiction;
      try (split; exact I); try outs.
    destruct I1 as [S1 R1]. destruct I2 as [S2 R2]. destruct (IH p r r' Hp S1) as [J1 J2].
    destruct (prun rule n p r), (prun rule n p r'); cbn in J1, J2; try contradiction; try (split; exact I).
    split; split; assumption.
  - apply andb_true_iff in He as [He Hp]. destruct (IH e t t' He Hs) as [I1 I2].
    destruct (prun rule n e t) as [| |r], (prun rule n e t') as [| |r']; cbn in I1, I2; try contradiction;
      try (split; exact I); try outs.
    destruct I1 as [S1 R1]. destruct I2 as [S2 R2]. destruct (IH p r r' Hp S1) as [J1 J2].
    destruct (prun rule n p r), (prun rule n p r'); cbn in J1, J2; try contradiction; try (split; exact I).
    split; split; assumption.
  - apply andb_true_iff in He as [He Hp]. destruct (IH p t t' Hp Hs) as [I1 I2].
    destruct (prun rule n p t) as [| |r], (prun rule n p t') as [| |r']; cbn in I1, I2; try contradiction;
      try (split; exact I); try outs.
    apply IH; assumption.
  - apply IH; [apply HC|exact Hs].
Qed.
End Sim.

Lemma rules_closed x : closed (rule x) = true.
Proof. destruct x; vm_compute; reflexivity. Qed.

(** The rules of rules.rs on texts with the same spelling. *)
Lemma ev_sim x t t' : sim t t' ->
  match ev (Call x) t, ev (Call x) t' with
  | Some r, Some r' => sim r r' /\ reach t r /\ reach t' r'
  | None, None => True
  | _, _ => False
  end.
Proof.
  intros Hs. set (n := Nat.max (rules_fuel t) (rules_fuel t')).
  pose proof (ev_big n (Call x) t (wfe_call x) ltac:(unfold n; lia)) as E.
  pose proof (ev_big n (Call x) t' (wfe_call x) ltac:(unfold n; lia)) as E'.
  destruct (prun_sim rule rules_closed n (Call x) t t' eq_refl Hs) as [A B]. rewrite E, E' in A, B.
  destruct (ev (Call x) t), (ev (Call x) t'); cbn in A, B; tauto.
Qed.

Lemma accepts_sim x t t' : sim t t' -> accepts x t = accepts x t'.
Proof.
  intros H. apply (ev_sim x) in H. unfold accepts.
  destruct (ev (Call x) t), (ev (Call x) t'); reflexivity || contradiction.
Qed.

Lemma accepts_all_sim x t t' : sim t t' -> accepts_all x t = accepts_all x t'.
Proof.
  intros H. apply (ev_sim x) in H. unfold accepts_all.
  destruct (ev (Call x) t) as [r|], (ev (Call x) t') as [r'|]; try reflexivity; try contradiction.
  destruct H as (H & _ & _). apply sim_nil in H. destruct r, r'; try reflexivity; exfalso; destruct H as [H1 H2];
    [discriminate (H1 eq_refl)|discriminate (H2 eq_refl)].
Qed.
End Norm.

(** Up to commas and [h]. *)
Notation spell := (spell_by norm).
Notation sim := (sim_by norm).

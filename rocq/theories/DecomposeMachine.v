(** DecomposeMachine.v -- the [Decomposer] state machine refines a simple
    machine over (words of the current chunk, remaining chunks). *)
From Verif Require Import Base Peg Rules RulesApi PegMeta RulesTotal PegChars Span Decompose
  DecomposeSpec DecomposeFacts History.
From Coq Require Import Lia Arith.

(** * The abstract machine *)

Definition astate : Type := list span * list (N * list char).

Fixpoint a_find (rem : list (N * list char)) : option span * astate :=
  match rem with
  | [] => (None, ([], []))
  | (o, c) :: l => match spans_of o (chunk_words c) with
                   | [] => a_find l
                   | w :: r => (Some w, (r, l))
                   end
  end.

Definition a_next (a : astate) : option span * astate :=
  match a with
  | (w :: r, rem) => (Some w, (r, rem))
  | ([], rem) => a_find rem
  end.

Definition a_nnd (L : N) (a : astate) : option span * astate :=
  match a with
  | (w :: _, rem) =>
      (Some (mkspan (sp_start w) (match rem with [] => L | (o, _) :: _ => o - 1 end)), ([], rem))
  | ([], []) => (None, ([], []))
  | ([], (o, c) :: l) => (Some (mkspan o (o + blen c)), ([], l))
  end.

Definition a_step (L : N) (op : dop) (a : astate) : option span * astate :=
  match op with ONext => a_next a | ONoDec => a_nnd L a end.

Fixpoint a_run (L : N) (ops : list dop) (a : astate) : list (option span) * astate :=
  match ops with
  | [] => ([], a)
  | op :: r => let (x, a1) := a_step L op a in
               let (xs, a2) := a_run L r a1 in (x :: xs, a2)
  end.

Definition a_init (t : list char) : astate := ([], chunks_of t).

(** * Positions of the chunks *)

Lemma split_seps_cases t :
  (split_seps t = [t] /\ Forall (fun c => split_or_trim_condition c = false) t) \/
  exists c s u, t = c ++ s :: u /\ split_or_trim_condition s = true /\ split_seps t = c :: split_seps u
                /\ Forall (fun c => split_or_trim_condition c = false) c.
Proof.
  induction t as [|a t IH]; cbn [split_seps].
  - left; split; [reflexivity|constructor].
  - destruct (split_or_trim_condition a) eqn:E.
    + right. exists [], a, t. repeat split; auto.
    + destruct IH as [[IH IHf]|(c & s & u & Ht & Hs & IH & IHf)].
      * left. rewrite IH. split; [reflexivity|constructor; assumption].
      * right. exists (a :: c), s, u. rewrite IH. subst t. repeat split; auto.
Qed.

Lemma chunks_pos : forall pre t o0 o c post,
  chunks_off (split_seps t) o0 = pre ++ (o, c) :: post ->
  exists x y, t = x ++ c ++ y /\ o = o0 + blen x /\
    Forall (fun a => split_or_trim_condition a = false) c /\
    match post with
    | [] => y = []
    | (o', _) :: _ => o' = o + blen c + 1 /\
        exists s y', y = s :: y' /\ split_or_trim_condition s = true /\ post = chunks_off (split_seps y') o'
    end.
Proof.
  induction pre as [|[p q] pre IH]; intros t o0 o c post.
  - destruct (split_seps_cases t) as [[-> Hf]|(c' & s & u & -> & Hs & -> & Hf)]; cbn [chunks_off app];
      intros [= <- <- <-].
    + exists [], []. rewrite app_nil_r. repeat split; [cbn [blen]; lia|exact Hf].
    + exists [], (s :: u). repeat split; [cbn [blen]; lia|exact Hf|].
      destruct (split_seps u) as [|x l] eqn:E; [destruct (split_seps_ne u E)|].
      cbn [chunks_off]. split; [reflexivity|]. exists s, u. rewrite E. repeat split; auto.
  - destruct (split_seps_cases t) as [[-> Hf]|(c' & s & u & -> & Hs & -> & Hf)]; cbn [chunks_off app].
    + intros [= _ _ H]. destruct pre; discriminate.
    + intros [= <- <- H]. apply IH in H as (x & y & -> & -> & Hc & Hpost).
      exists (c' ++ s :: x), y. split; [rewrite <- !app_assoc; reflexivity|].
      split; [rewrite blen_app, blen_cons, (sep_clen s Hs); lia|]. split; [exact Hc|exact Hpost].
Qed.

(** * Invariant of the abstract machine *)

Definition a_inv (T : list char) (a : astate) : Prop :=
  exists pre, chunks_of T = pre ++ snd a /\
    (fst a = [] \/ exists pre' o c done, pre = pre' ++ [(o, c)] /\
                     spans_of o (chunk_words c) = done ++ fst a).

Lemma a_inv_init T : a_inv T (a_init T).
Proof. exists []. split; [reflexivity|left; reflexivity]. Qed.

Lemma a_find_inv T : forall rem pre, chunks_of T = pre ++ rem -> a_inv T (snd (a_find rem)).
Proof.
  induction rem as [|[o c] l IH]; intros pre H; cbn [a_find].
  - exists pre. split; [exact H|left; reflexivity].
  - destruct (spans_of o (chunk_words c)) as [|w r] eqn:E.
    + apply (IH (pre ++ [(o, c)])). rewrite <- app_assoc. exact H.
    + exists (pre ++ [(o, c)]). split; [rewrite <- app_assoc; exact H|].
      right. exists pre, o, c, [w]. split; [reflexivity|exact E].
Qed.

Lemma a_step_inv T L op a : a_inv T a -> a_inv T (snd (a_step L op a)).
Proof.
  intros (pre & H & Hc). destruct a as [cur rem]. cbn [fst snd] in *.
  destruct op; cbn [a_step].
  - destruct cur as [|w cur]; cbn [a_next].
    + eapply a_find_inv; exact H.
    + exists pre. split; [exact H|]. right.
      destruct Hc as [Hc|(pre' & o & c & done & Hp & Hs)]; [discriminate|].
      exists pre', o, c, (done ++ [w]). split; [exact Hp|]. rewrite <- app_assoc. exact Hs.
  - destruct cur as [|w cur]; cbn [a_nnd].
    + destruct rem as [|[o c] l]; cbn [snd].
      * exists pre. split; [exact H|left; reflexivity].
      * exists (pre ++ [(o, c)]). split; [rewrite <- app_assoc; exact H|left; reflexivity].
    + exists pre. split; [exact H|left; reflexivity].
Qed.

Lemma a_run_inv T L : forall ops a, a_inv T a -> a_inv T (snd (a_run L ops a)).
Proof.
  induction ops as [|op ops IH]; intros a H; cbn [a_run]; [exact H|].
  pose proof (a_step_inv T L op a H) as H1. destruct (a_step L op a) as [x a1]. cbn [snd] in H1.
  specialize (IH a1 H1). destruct (a_run L ops a1) as [xs a2]. exact IH.
Qed.

(** * Refinement *)

Definition pk_rest (p : peekable) : list str :=
  match peeked p with
  | Some (Some c) => c :: inner p
  | Some None => []
  | None => inner p
  end.

Definition pk_ok (p : peekable) : Prop := peeked p = Some None -> inner p = [].

Definition refines (s : str) (d : decomposer) (a : astate) : Prop :=
  d_input d = s /\ current_chunk d = fst a /\
  pk_rest (chunks d) = map (at_base (ptr s)) (snd a) /\ pk_ok (chunks d).

Lemma keep_chunk_words base o c :
  keep_chunk (at_base base (o, c)) = match chunk_words c with [] => false | _ => true end.
Proof.
  unfold keep_chunk, at_base, s_is_empty. cbn [txt fst snd].
  pose proof (chunk_words_nil c) as H.
  destruct (chunk_words c) as [|w ws].
  - assert (Hf : Forall (fun c => is_comma c = true) c) by (apply H; reflexivity).
    assert (forallb is_comma c = true) as -> by (apply forallb_forall; rewrite Forall_forall in Hf; exact Hf).
    destruct c; reflexivity.
  - destruct c as [|x c].
    + destruct H as [_ H]. specialize (H (Forall_nil _)). discriminate.
    + cbn [negb andb]. destruct (forallb is_comma (x :: c)) eqn:E; [|reflexivity].
      destruct H as [_ H]. rewrite forallb_forall in E. rewrite <- Forall_forall in E.
      specialize (H E). discriminate.
Qed.

Lemma spans_of_nil o ws : spans_of o ws = [] <-> ws = [].
Proof. destruct ws; cbn; split; congruence. Qed.

Lemma find_in_spec base : forall rem,
  match a_find rem with
  | (None, _) => find_in (map (at_base base) rem) = (None, [])
  | (Some w, (r, l)) => exists o c, find_in (map (at_base base) rem) = (Some (at_base base (o, c)), map (at_base base) l)
        /\ spans_of o (chunk_words c) = w :: r /\ exists pre, rem = pre ++ (o, c) :: l
  end.
Proof.
  induction rem as [|[o c] l IH]; cbn [a_find map find_in]; [reflexivity|].
  rewrite keep_chunk_words.
  destruct (spans_of o (chunk_words c)) as [|w r] eqn:E.
  - apply spans_of_nil in E. rewrite E.
    destruct (a_find l) as [[w|] [r l']].
    + destruct IH as (o' & c' & H1 & H2 & pre & ->). exists o', c'. split; [exact H1|]. split; [exact H2|].
      exists ((o, c) :: pre). reflexivity.
    + exact IH.
  - destruct (chunk_words c) as [|w0 ws] eqn:Ec; [discriminate|].
    exists o, c. rewrite Ec. split; [reflexivity|]. split; [exact E|]. exists []. reflexivity.
Qed.

Lemma a_find_none rem a : a_find rem = (None, a) -> a = ([], []).
Proof.
  induction rem as [|[o c] l IH]; cbn [a_find]; [congruence|].
  destruct (spans_of o (chunk_words c)); [exact IH|discriminate].
Qed.

Lemma pk_find_spec p : pk_ok p ->
  pk_find p = let (r, l) := find_in (pk_rest p) in (r, mkpeek None l).
Proof.
  destruct p as [[[c|]|] l]; unfold pk_ok, pk_find, pk_rest; cbn [peeked inner find_in]; intros H.
  - destruct (keep_chunk c); reflexivity.
  - rewrite H by reflexivity. reflexivity.
  - reflexivity.
Qed.

Section BM.
Context (bm : build) (s : str).
Hypothesis Hsize : blen (txt s) <= U32MAX.
Let T := txt s.

Lemma shift_spec off : forall ws o, off + o + blen (List.concat ws) <= U32MAX ->
  shift_spans bm off (spans_of o ws) = Ret (spans_of (off + o) ws).
Proof.
  induction ws as [|w ws IH]; intros o H; cbn [spans_of shift_spans]; [reflexivity|].
  cbn [List.concat] in H. rewrite blen_app in H. cbn [sp_start sp_end].
  rewrite !u32_add_ok by lia. cbn [obind]. rewrite IH by lia. cbn [obind].
  rewrite (N.add_comm o off), (N.add_comm (o + blen w) off), N.add_assoc. reflexivity.
Qed.

Lemma inv_chunk_bound a pre o c post : a_inv T a -> snd a = pre ++ (o, c) :: post ->
  o + blen c <= U32MAX /\ blen c <= U32MAX.
Proof.
  intros (pre0 & H & _) Hs. unfold chunks_of in H. rewrite Hs, app_assoc in H.
  apply chunks_pos in H as (x & y & HT & -> & _). fold T in Hsize.
  assert (blen T = blen x + (blen c + blen y)) by (rewrite HT, !blen_app; reflexivity). lia.
Qed.

Lemma chunk_words_blen c : blen (List.concat (chunk_words c)) <= blen c.
Proof.
  destruct (chunk_words_tile c) as (tail & H & _). rewrite H at 2. rewrite blen_app. lia.
Qed.

Lemma dec_next_loop_S n d :
  dec_next_loop bm (S n) d =
      match current_chunk d with
      | w :: r => Ret (Some w, mkdec (chunks d) r (d_input d))
      | [] =>
          let (c, p) := pk_find (chunks d) in
          match c with
          | None => Ret (None, mkdec p [] (d_input d))
          | Some chunk =>
              if ptr (d_input d) <=? ptr chunk then
                let! offset := to_u32 (ptr chunk - ptr (d_input d)) in
                let! words := decompose_single bm chunk in
                let! words := shift_spans bm offset words in
                dec_next_loop bm n (mkdec p words (d_input d))
              else Panic
          end
      end.
Proof. reflexivity. Qed.

Lemma dec_next_refines d a : refines s d a -> a_inv T a ->
  exists d', dec_next bm d = Ret (fst (a_next a), d') /\ refines s d' (snd (a_next a)) /\
             peeked (chunks d') = match current_chunk d with [] => None | _ => peeked (chunks d) end.
Proof.
  intros (Hi & Hc & Hr & Hok) Hinv. destruct a as [cur rem]. cbn [fst snd] in *.
  unfold dec_next. set (fuel := List.length _). clearbody fuel. rewrite dec_next_loop_S, Hc.
  destruct cur as [|w cur]; cbn [a_next].
  - rewrite pk_find_spec by exact Hok. rewrite Hr. pose proof (find_in_spec (ptr s) rem) as F.
    destruct (a_find rem) as [[w|] [r l]] eqn:Ea.
    + destruct F as (o & c & F & Hsp & pre & Hrem). rewrite F.
      unfold at_base at 1. cbn [ptr fst snd]. rewrite Hi.
      destruct (ptr s <=? ptr s + o) eqn:E; [|apply N.leb_gt in E; lia].
      unfold at_base at 1. cbn [ptr fst snd].
      replace (ptr s + o - ptr s) with o by lia.
      destruct (inv_chunk_bound ([], rem) pre o c l Hinv Hrem) as [B1 B2].
      rewrite to_u32_ok by lia. cbn [obind].
      rewrite decompose_single_spec by (cbn [txt at_base snd]; lia). cbn [obind].
      pose proof (chunk_words_blen c) as B3.
      unfold at_base at 1. cbn [txt fst snd].
      rewrite shift_spec by lia. cbn [obind]. rewrite N.add_0_r, Hsp.
      rewrite dec_next_loop_S. cbn [current_chunk chunks d_input].
      eexists. split; [reflexivity|]. split; [|reflexivity].
      split; [reflexivity|]. split; [reflexivity|]. split; [reflexivity|]. intros HH; discriminate.
    + rewrite F. eexists. split; [reflexivity|]. apply a_find_none in Ea as [= -> ->]. split; [|reflexivity].
      split; [exact Hi|]. split; [reflexivity|]. split; [reflexivity|]. intros HH; discriminate.
  - eexists. split; [reflexivity|]. split; [|reflexivity].
    split; [exact Hi|]. split; [reflexivity|]. split; [exact Hr|exact Hok].
Qed.

Lemma slice_to_span_ok d o c : d_input d = s -> o + blen c <= U32MAX ->
  slice_to_span bm d (at_base (ptr s) (o, c)) = Ret (mkspan o (o + blen c)).
Proof.
  intros Hi Hb. unfold slice_to_span. rewrite Hi. unfold at_base. cbn [fst snd].
  apply from_embedded_ok. exact Hb.
Qed.

Lemma nnd_refines d a : refines s d a -> a_inv T a ->
  exists d', next_no_decomposition bm d = Ret (fst (a_nnd (blen T) a), d') /\ refines s d' (snd (a_nnd (blen T) a)).
Proof.
  intros (Hi & Hc & Hr & Hok) Hinv. destruct a as [cur rem]. cbn [fst snd] in *.
  unfold next_no_decomposition. rewrite Hc. destruct cur as [|w cur]; cbn [a_nnd].
  - assert (Hn : pk_next (chunks d) = match map (at_base (ptr s)) rem with
                                      | [] => (None, mkpeek None (inner (chunks d)))
                                      | c :: l => (Some c, mkpeek None l) end
                 /\ (rem = [] -> inner (chunks d) = [])).
    { rewrite <- Hr. unfold pk_next, pk_rest in *. destruct (chunks d) as [[[c|]|] l]; cbn [peeked inner] in *.
      - split; [reflexivity|]. intros ->. discriminate.
      - split; [reflexivity|]. intros _. apply Hok. reflexivity.
      - split; [destruct l; reflexivity|]. intros ->. exact Hr. }
    destruct Hn as [-> Hn2].
    destruct rem as [|[o c] l]; cbn [map].
    + eexists. split; [reflexivity|]. split; [exact Hi|]. split; [reflexivity|].
      split; [cbn [chunks pk_rest peeked inner snd map]; apply Hn2; reflexivity|]. intros HH; discriminate.
    + destruct (inv_chunk_bound ([], (o, c) :: l) [] o c l Hinv eq_refl) as [B1 B2].
      rewrite slice_to_span_ok by assumption. cbn [obind].
      eexists. split; [reflexivity|]. split; [exact Hi|]. split; [reflexivity|]. split; [reflexivity|].
      intros HH; discriminate.
  - assert (Hp : exists p, pk_peek (chunks d) = (match map (at_base (ptr s)) rem with [] => None | c :: _ => Some c end, p)
                  /\ pk_rest p = map (at_base (ptr s)) rem /\ pk_ok p).
    { rewrite <- Hr. unfold pk_peek, pk_rest, pk_ok in *. destruct (chunks d) as [[[c|]|] l]; cbn [peeked inner] in *.
      - eexists; split; [reflexivity|]. cbn [peeked inner]. split; [reflexivity|exact Hok].
      - eexists; split; [reflexivity|]. cbn [peeked inner]. split; [reflexivity|exact Hok].
      - destruct l as [|c l]; (eexists; split; [reflexivity|]); cbn [peeked inner]; split; try reflexivity; discriminate. }
    destruct Hp as (p & -> & Hp2 & Hp3).
    destruct rem as [|[o c] l]; cbn [map].
    + rewrite Hi. unfold s_len. rewrite to_u32_ok by exact Hsize. cbn [obind].
      eexists. split; [reflexivity|]. split; [reflexivity|]. split; [reflexivity|]. split; [exact Hp2|exact Hp3].
    + destruct (inv_chunk_bound (w :: cur, (o, c) :: l) [] o c l Hinv eq_refl) as [B1 B2].
      rewrite slice_to_span_ok by assumption. cbn [obind sp_start].
      assert (Ho : 1 <= o).
      { destruct Hinv as (pre & H & [H2|(pre' & o' & c' & done & -> & _)]); [discriminate|].
        cbn [snd] in H. rewrite <- app_assoc in H. cbn [app] in H.
        apply chunks_pos in H as (x & y & _ & _ & _ & H & _). lia. }
      unfold u32_sub. destruct (1 <=? o) eqn:E; [|apply N.leb_gt in E; lia].
      cbn [obind]. rewrite Hi. eexists. split; [reflexivity|]. split; [reflexivity|]. split; [reflexivity|]. split; [exact Hp2|exact Hp3].
Qed.

Lemma dstep_refines op d a : refines s d a -> a_inv T a ->
  exists d', dstep bm op d = Ret (fst (a_step (blen T) op a), d') /\ refines s d' (snd (a_step (blen T) op a)).
Proof.
  intros Hr Hi. destruct op; cbn [dstep a_step].
  - destruct (dec_next_refines d a Hr Hi) as (d' & H1 & H2 & _). exists d'. split; assumption.
  - apply nnd_refines; assumption.
Qed.

Lemma drun_refines ops : forall d a, refines s d a -> a_inv T a ->
  exists d', drun bm ops d = Ret (fst (a_run (blen T) ops a), d') /\ refines s d' (snd (a_run (blen T) ops a)).
Proof.
  induction ops as [|op ops IH]; intros d a Hr Hi; cbn [drun a_run].
  - exists d. split; [reflexivity|exact Hr].
  - destruct (dstep_refines op d a Hr Hi) as (d1 & -> & Hr1). cbn [obind].
    pose proof (a_step_inv T (blen T) op a Hi) as Hi1.
    destruct (a_step (blen T) op a) as [x a1]. cbn [fst snd] in *.
    destruct (IH d1 a1 Hr1 Hi1) as (d2 & -> & Hr2). cbn [obind].
    destruct (a_run (blen T) ops a1) as [xs a2]. cbn [fst snd] in *.
    exists d2. split; [reflexivity|exact Hr2].
Qed.

Lemma refines_init : refines s (decompose s) (a_init T).
Proof.
  split; [reflexivity|]. split; [reflexivity|]. split; [|intros HH; discriminate].
  cbn [decompose chunks pk_rest peeked inner a_init snd]. apply split_chunks_all.
Qed.

(** every history returns, and its results are those of the abstract machine *)
Theorem history_spec ops : exists d',
  drun bm ops (decompose s) = Ret (fst (a_run (blen T) ops (a_init T)), d') /\
  refines s d' (snd (a_run (blen T) ops (a_init T))).
Proof. apply drun_refines; [apply refines_init|apply a_inv_init]. Qed.

(** * Plain iteration *)

(** words still to come *)
Definition a_words (a : astate) : list span :=
  fst a ++ flat_map (fun oc => spans_of (fst oc) (chunk_words (snd oc))) (snd a).

Lemma a_find_words rem :
  match a_find rem with
  | (None, a) => a_words ([], rem) = [] /\ a = ([], [])
  | (Some w, a) => a_words ([], rem) = w :: a_words a
  end.
Proof.
  induction rem as [|[o c] l IH]; cbn [a_find]; [split; reflexivity|].
  unfold a_words in *. cbn [fst snd app flat_map] in *.
  destruct (spans_of o (chunk_words c)) as [|w r]; [exact IH|reflexivity].
Qed.

Lemma a_next_words a :
  match a_next a with
  | (None, a') => a_words a = [] /\ a' = ([], [])
  | (Some w, a') => a_words a = w :: a_words a'
  end.
Proof.
  destruct a as [[|w cur] rem]; cbn [a_next].
  - apply a_find_words.
  - reflexivity.
Qed.

Lemma dec_collect_spec k : forall d a, refines s d a -> a_inv T a -> (List.length (a_words a) < k)%nat ->
  dec_collect bm k d = Ret (a_words a).
Proof.
  induction k as [|k IH]; intros d a Hr Hi Hk; [lia|]. cbn [dec_collect].
  destruct (dec_next_refines d a Hr Hi) as (d' & -> & Hr' & _). cbn [obind].
  pose proof (a_step_inv T (blen T) ONext a Hi) as Hi'. cbn [a_step] in Hi'.
  pose proof (a_next_words a) as Hw.
  destruct (a_next a) as [[w|] a']; cbn [fst snd] in *.
  - rewrite Hw in Hk. cbn [List.length] in Hk.
    rewrite (IH d' a' Hr' Hi') by lia. cbn [obind]. rewrite Hw. reflexivity.
  - destruct Hw as [-> _]. reflexivity.
Qed.
End BM.

Lemma spans_of_length o ws : List.length (spans_of o ws) = List.length ws.
Proof. revert o; induction ws as [|w ws IH]; intros o; cbn [spans_of List.length]; [reflexivity|rewrite IH; reflexivity]. Qed.

Lemma words_length ws : Forall has_non_comma ws -> (List.length ws <= List.length (List.concat ws))%nat.
Proof.
  induction 1 as [|w ws (c & Hin & _) _ IH]; cbn [List.length List.concat]; [lia|].
  rewrite app_length. destruct w; [destruct Hin|cbn [List.length]; lia].
Qed.

Lemma text_words_length_aux : forall cs o,
  (List.length (flat_map (fun oc => spans_of (fst oc) (chunk_words (snd oc))) (chunks_off cs o))
   <= List.length (List.concat cs))%nat.
Proof.
  induction cs as [|c cs IH]; intros o; cbn [chunks_off flat_map List.concat]; [apply Nat.le_refl|].
  rewrite !app_length, spans_of_length. cbn [fst snd].
  pose proof (words_length _ (chunk_words_proper c)). destruct (chunk_words_tile c) as (tail & Ht & _).
  assert (List.length c = List.length (List.concat (chunk_words c)) + List.length tail)%nat
    by (rewrite Ht at 1; apply app_length).
  specialize (IH (o + blen c + 1)). lia.
Qed.

Lemma split_seps_length t : (List.length (List.concat (split_seps t)) <= List.length t)%nat.
Proof.
  induction t as [|c t IH]; cbn [split_seps]; [cbn; lia|].
  destruct (split_or_trim_condition c).
  - change (List.concat ([] :: split_seps t)) with (List.concat (split_seps t)). cbn [List.length]. lia.
  - destruct (split_seps t) as [|x l]; cbn [List.concat app List.length] in *; lia.
Qed.

Lemma text_words_length t : (List.length (text_words t) <= List.length t)%nat.
Proof.
  unfold text_words, chunks_of. pose proof (text_words_length_aux (split_seps t) 0).
  pose proof (split_seps_length t). lia.
Qed.

Theorem decompose_all_spec bm s : blen (txt s) <= U32MAX ->
  decompose_all bm s = Ret (text_words (txt s)).
Proof.
  intros Hs. unfold decompose_all.
  rewrite (dec_collect_spec bm s Hs _ _ (a_init (txt s))).
  - reflexivity.
  - apply refines_init.
  - apply a_inv_init.
  - pose proof (text_words_length (txt s)). unfold a_words, a_init, text_words in *. cbn [fst snd app]. lia.
Qed.

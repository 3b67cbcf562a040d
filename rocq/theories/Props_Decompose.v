(** Props_Decompose.v -- properties C01-C11 of [decompose] and [Decomposer].
    Only statements, each closed by a lemma proved elsewhere, and examples
    showing that the hypotheses are met.  [s_len s < 4294967296] is "the input
    is shorter than 4 GiB"; [bm] ranges over the debug and release profiles. *)
From Verif Require Import Base Span Decompose History SpecText DecomposeThms.
From Coq Require Import Sorting.Sorted.

(** an input with several chunks, words and commas, used in the examples *)
Definition ex_text : str := mkstr 1000 (lit "coiro,do .i mi klama ,, le.zarci djan").

(** C01 Decomposition is total. *)
Theorem C01_decompose_total bm s : s_len s < 4294967296 -> exists ws, decompose_all bm s = Ret ws.
Proof. exact (decompose_total bm s). Qed.
Print Assumptions C01_decompose_total.

Theorem C01_history_total bm s ops : s_len s < 4294967296 ->
  exists rs d, drun bm ops (decompose s) = Ret (rs, d) /\ List.length rs = List.length ops.
Proof. exact (history_total bm s ops). Qed.
Print Assumptions C01_history_total.

Example C01_example : s_len ex_text < 4294967296 /\
  decompose_all Debug ex_text =
  Ret [mkspan 0 3; mkspan 3 5; mkspan 5 8; mkspan 10 11; mkspan 12 14; mkspan 15 20;
       mkspan 24 26; mkspan 27 32; mkspan 33 37].
Proof. split; vm_compute; reflexivity. Qed.

(** C02 Every span yielded under any history slices the input. *)
Theorem C02_spans_slice bm s ops rs d sp : s_len s < 4294967296 ->
  drun bm ops (decompose s) = Ret (rs, d) -> In (Some sp) rs ->
  exists w, span_slice sp s = Some w.
Proof. intros H Hd. exact (proj1 (history_positions bm s ops rs d H Hd) sp). Qed.
Print Assumptions C02_spans_slice.

(** C03 ... and they are ordered and disjoint. *)
Theorem C03_spans_ordered bm s ops rs d : s_len s < 4294967296 ->
  drun bm ops (decompose s) = Ret (rs, d) ->
  StronglySorted (fun v w => sp_end v <= sp_start w) (somes rs).
Proof. intros H Hd. exact (proj2 (history_positions bm s ops rs d H Hd)). Qed.
Print Assumptions C03_spans_ordered.

Example C02_C03_example : exists d,
  drun Debug [ONext; ONoDec; ONext; ONext; ONoDec; ONoDec] (decompose ex_text) =
  Ret ([Some (mkspan 0 3); Some (mkspan 3 8); Some (mkspan 10 11); Some (mkspan 12 14);
        Some (mkspan 15 20); Some (mkspan 21 23)], d).
Proof. eexists. vm_compute. reflexivity. Qed.

(** C04 Nothing is lost or invented: the input is an alternation of gaps
    (separators and commas only) and words, and the spans are those of the
    words; between two consecutive words there is nothing or a separator. *)
Theorem C04_tiled bm s ws : decompose_all bm s = Ret ws -> s_len s < 4294967296 ->
  tiled true 0 (txt s) ws.
Proof. exact (decompose_tiled bm s ws). Qed.
Print Assumptions C04_tiled.

(** C05 Every word is non-empty, has no separator, and is not just commas. *)
Theorem C05_words_proper bm s ws sp : decompose_all bm s = Ret ws -> s_len s < 4294967296 -> In sp ws ->
  exists w, span_slice sp s = Some w /\ proper_word (txt w) /\ sp_start sp < sp_end sp.
Proof. exact (decompose_proper bm s ws sp). Qed.
Print Assumptions C05_words_proper.

(** C06 A separator splits the work; which separator does not matter. *)
Theorem C06_separator bm p pa pb a s b wa wb : is_sep s -> blen (a ++ s :: b) < 4294967296 ->
  decompose_all bm (mkstr pa a) = Ret wa -> decompose_all bm (mkstr pb b) = Ret wb ->
  decompose_all bm (mkstr p (a ++ s :: b)) = Ret (wa ++ map (shift_span (blen a + 1)) wb).
Proof. exact (decompose_separator bm p pa pb a s b wa wb). Qed.
Print Assumptions C06_separator.

Theorem C06_interchangeable bm p p' a b s s' : is_sep s -> is_sep s' -> blen (a ++ s :: b) < 4294967296 ->
  decompose_all bm (mkstr p (a ++ s :: b)) = decompose_all bm (mkstr p' (a ++ s' :: b)).
Proof. exact (separators_interchangeable bm p p' a b s s'). Qed.
Print Assumptions C06_interchangeable.

Example C06_example : is_sep 46 /\ is_sep 10 /\ is_sep 32 /\ is_sep 33 /\
  decompose_all Debug (mkstr 0 (lit "lo" ++ 10 :: lit "nu,cu")) =
  Ret [mkspan 0 2; mkspan 3 5; mkspan 5 8].
Proof. unfold is_sep. split; [cbn; tauto|]. split; [cbn; tauto|]. split; [cbn; tauto|].
  split; [cbn; tauto|]. vm_compute. reflexivity. Qed.

(** C07 A chunk whose last non-comma char is a consonant is one word. *)
Theorem C07_cmevla_chunk bm s x a k tail ws : s_len s < 4294967296 ->
  chunk_at (txt s) x (a ++ k :: tail) -> is_consonant_letter k -> all_commas tail ->
  decompose_all bm s = Ret ws ->
  exists l1 l2, ws = l1 ++ mkspan (blen x) (blen x + blen (a ++ k :: tail)) :: l2 /\
    Forall (fun sp => sp_end sp <= blen x) l1 /\
    Forall (fun sp => blen x + blen (a ++ k :: tail) <= sp_start sp) l2.
Proof. exact (decompose_cmevla_chunk bm s x a k tail ws). Qed.
Print Assumptions C07_cmevla_chunk.

Example C07_example : chunk_at (lit "coi lojbanistan, mi") (lit "coi ") (lit "lojbanista" ++ 110 :: lit ",")
  /\ is_consonant_letter 110 /\ all_commas (lit ",").
Proof.
  split; [|split; [cbn; tauto|repeat constructor]].
  split; [|split].
  - repeat constructor; unfold is_sep; cbn; intros H; repeat (destruct H as [H|H]; [discriminate|]); exact H.
  - right. exists (lit "coi"), 32. split; [reflexivity|]. unfold is_sep; cbn; tauto.
  - exists (lit " mi"). split; [reflexivity|]. right. exists 32, (lit "mi"). split; [reflexivity|]. unfold is_sep; cbn; tauto.
Qed.

(** C08 [next_no_decomposition] alone splits at separators, keeping empty chunks. *)
Theorem C08_nodec_splits bm s k : s_len s < 4294967296 ->
  exists sps d, joined 0 (txt s) sps /\
    drun bm (repeat ONoDec (List.length sps + k)) (decompose s) = Ret (map Some sps ++ repeat None k, d).
Proof. exact (nodec_splits bm s k). Qed.
Print Assumptions C08_nodec_splits.

(** C09 After [next] yielded a word [v] and the next word [w] touches it (same
    chunk), [next_no_decomposition] yields the text from [w] to the end of the
    chunk, and every later call behaves as on a fresh decomposer of what
    follows the chunk. *)
Theorem C09_nodec_resumes bm s ops rs v d w d1 : s_len s < 4294967296 ->
  drun bm (ops ++ [ONext]) (decompose s) = Ret (rs ++ [Some v], d) ->
  dec_next bm d = Ret (Some w, d1) -> sp_end v = sp_start w ->
  exists x y z, txt s = x ++ y ++ z /\ blen x = sp_start w /\ no_sep y /\
    (z = [] \/ exists c z', z = c :: z' /\ is_sep c) /\
    exists d2, next_no_decomposition bm d = Ret (Some (mkspan (blen x) (blen x + blen y)), d2) /\
      forall ops', match z with
        | [] => exists d3, drun bm ops' d2 = Ret (repeat None (List.length ops'), d3)
        | _ :: z' => forall q, exists rs' d3 d4,
            drun bm ops' (decompose (mkstr q z')) = Ret (rs', d4) /\
            drun bm ops' d2 = Ret (map (option_map (shift_span (blen x + blen y + 1))) rs', d3)
        end.
Proof. exact (nodec_resumes bm s ops rs v d w d1). Qed.
Print Assumptions C09_nodec_resumes.

Example C09_example : exists d d1,
  drun Debug ([] ++ [ONext]) (decompose ex_text) = Ret ([] ++ [Some (mkspan 0 3)], d) /\
  dec_next Debug d = Ret (Some (mkspan 3 5), d1).
Proof. do 2 eexists. split; [vm_compute; reflexivity|]. vm_compute. reflexivity. Qed.

(** C10 Once any call returns [None], all later calls do. *)
Theorem C10_fused bm s ops op ops' rs rs' d : s_len s < 4294967296 ->
  drun bm (ops ++ op :: ops') (decompose s) = Ret (rs ++ None :: rs', d) ->
  List.length rs = List.length ops -> Forall (fun r => r = None) rs'.
Proof. exact (decomposer_fused bm s ops op ops' rs rs' d). Qed.
Print Assumptions C10_fused.

Example C10_example : exists d, drun Debug ([ONext] ++ ONext :: [ONoDec; ONext]) (decompose (mkstr 5 (lit "do ,")))
  = Ret ([Some (mkspan 0 2)] ++ None :: [None; None], d).
Proof. eexists. vm_compute. reflexivity. Qed.

(** C11 [size_hint]: full statement
      forall histories, dec_size_hint d <= number of words [next] still yields
    is false after [next_no_decomposition]: it peeks the next chunk, which may
    hold no word, and [Peekable::size_hint] counts it. *)
Theorem C11_size_hint_refuted : exists s ops rs d ws,
  drun Debug ops (decompose s) = Ret (rs, d) /\
  dec_collect Debug 100 d = Ret ws /\ N.of_nat (List.length ws) < dec_size_hint d.
Proof.
  exists (mkstr 0 (lit "fuvi ")), [ONext; ONoDec].
  do 3 eexists. split; [vm_compute; reflexivity|]. split; [vm_compute; reflexivity|]. reflexivity.
Qed.
Print Assumptions C11_size_hint_refuted.

(** It holds when only [next] was called, and is never off by more than one. *)
Theorem C11_size_hint_partial bm s n rs d k : s_len s < 4294967296 ->
  drun bm (repeat ONext n) (decompose s) = Ret (rs, d) -> (List.length (txt s) < k)%nat ->
  exists ws, dec_collect bm k d = Ret ws /\ dec_size_hint d <= N.of_nat (List.length ws).
Proof. exact (size_hint_next_only bm s n rs d k). Qed.
Print Assumptions C11_size_hint_partial.

Theorem C11_size_hint_off_by_one bm s ops rs d k : s_len s < 4294967296 ->
  drun bm ops (decompose s) = Ret (rs, d) -> (List.length (txt s) < k)%nat ->
  exists ws, dec_collect bm k d = Ret ws /\ dec_size_hint d <= N.of_nat (List.length ws) + 1.
Proof. exact (size_hint_any bm s ops rs d k). Qed.
Print Assumptions C11_size_hint_off_by_one.

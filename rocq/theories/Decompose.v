(** Decompose.v -- /repo/src/decompose/mod.rs.  No proofs in this file.

    Simplification: [std::str::Split] is a lazy iterator over a pure function
    of its input; it is modelled by the list of the chunks it has still to
    yield. *)
From Verif Require Import Base Peg Rules RulesApi Span.

(** mod.rs:35-37: [".\t\n\r?! ".contains(ch)] *)
Definition SEPARATORS : list char := [46; 9; 10; 13; 63; 33; 32].
Definition split_or_trim_condition (ch : char) : bool := mem_char ch SEPARATORS.

(** [char::to_ascii_lowercase] *)
Definition to_ascii_lowercase (c : char) : char :=
  if (65 <=? c) && (c <=? 90) then c + 32 else c.

(** mod.rs:40-42 *)
Definition is_consonant (ch : char) : bool :=
  mem_char (to_ascii_lowercase ch) (lit "bcdfgjklmnprstvxz").

(** mod.rs:47-53 *)
Definition simple_cmevla_check (input : list char) : bool :=
  match find (fun ch => negb (is_comma ch)) (rev input) with
  | Some c => is_consonant c
  | None => false
  end.

(** mod.rs:56-62, with the short-circuiting of [&&] and [||] *)
Definition post_word (input : str) : outcome bool :=
  let! r := call_rule N_nucleus input in
  if is_some r then Ret false else
  let! r := call_rule N_gismu input in
  if is_some r then Ret true else
  let! r := call_rule N_fuhivla input in
  if is_some r then Ret true else
  let! r := call_rule N_lujvo_minimal input in
  if is_some r then Ret true else
  let! r := call_rule N_cmavo_minimal input in
  Ret (is_some r).

(** [str::trim_end_matches(',')] *)
Fixpoint trim_end_commas (t : list char) : list char :=
  match t with
  | [] => []
  | c :: u => match trim_end_commas u with
              | [] => if is_comma c then [] else [c]
              | v => c :: v
              end
  end.

(** mod.rs:78: [cmavo_minimal(rest).or_else(|| explicitly_stressed_brivla_minimal(rest))] *)
Definition fall_off (rest : str) : outcome (option (str * str)) :=
  let! r := call_rule N_cmavo_minimal rest in
  match r with
  | Some x => Ret (Some x)
  | None => call_rule N_explicitly_stressed_brivla_minimal rest
  end.

Section Profile.
Context (bm : build).

(** The while loop of mod.rs:77-84.  [saved] is [saved_decomposed], [chunks] the
    spans pushed so far, [base] is [input.as_ptr()]. *)
Fixpoint fall_off_loop (fuel : nat) (base : N) (rest : str) (saved : option (str * str))
    (chunks : list span) : outcome (str * option (str * str) * list span) :=
  match fuel with
  | O => Diverge
  | S n =>
      let! r := fall_off rest in
      match r with
      | None => Ret (rest, saved, chunks)
      | Some (fallen_off, new_rest) =>
          match saved with
          | Some (saved_word, _) =>
              let! sp := span_from_embedded_slice bm base saved_word in
              fall_off_loop n base new_rest (Some (fallen_off, rest)) (chunks ++ [sp])
          | None => fall_off_loop n base new_rest (Some (fallen_off, rest)) chunks
          end
      end
  end.

(** mod.rs:64-101 *)
Definition decompose_single (input : str) : outcome (list span) :=
  if simple_cmevla_check (txt input) then
    let! sp := span_from_embedded_slice bm (ptr input) input in Ret [sp]
  else
    let! (rest, saved, chunks) :=
      fall_off_loop (S (List.length (txt input))) (ptr input) input None [] in
    let! (rest, chunks) :=
      match saved with
      | None => Ret (rest, chunks)
      | Some (saved_word, old_rest) =>
          let! b := post_word rest in
          if (b : bool) then
            let! sp := span_from_embedded_slice bm (ptr input) saved_word in
            Ret (rest, chunks ++ [sp])
          else Ret (old_rest, chunks)
      end in
    let rest := mkstr (ptr rest) (trim_end_commas (txt rest)) in
    if s_is_empty rest then Ret chunks
    else let! sp := span_from_embedded_slice bm (ptr input) rest in Ret (chunks ++ [sp]).
End Profile.

(** All chunks of [input.split(split_or_trim_condition)] (mod.rs:155-157),
    which keeps empty chunks, including a trailing one; [""] gives one empty
    chunk.  [cur]/[p]: the chunk being read and its address. *)
Fixpoint split_chunks (t : list char) (q : N) (cur : list char) (p : N) : list str :=
  match t with
  | [] => [mkstr p (rev cur)]
  | c :: u =>
      if split_or_trim_condition c
      then mkstr p (rev cur) :: split_chunks u (q + clen c) [] (q + clen c)
      else split_chunks u (q + clen c) (c :: cur) p
  end.

(** [Peekable<Split>] (mod.rs:103): [peeked] is std's field of that name. *)
Record peekable := mkpeek { peeked : option (option str); inner : list str }.

(** [Peekable::next] *)
Definition pk_next (p : peekable) : option str * peekable :=
  match peeked p with
  | Some v => (v, mkpeek None (inner p))
  | None => match inner p with
            | [] => (None, p)
            | c :: l => (Some c, mkpeek None l)
            end
  end.

(** [Peekable::peek] *)
Definition pk_peek (p : peekable) : option str * peekable :=
  match peeked p with
  | Some v => (v, p)
  | None => match inner p with
            | [] => (None, mkpeek (Some None) [])
            | c :: l => (Some c, mkpeek (Some (Some c)) l)
            end
  end.

(** [Peekable::size_hint], lower bound ([Split]'s own is 0) *)
Definition pk_size_hint (p : peekable) : N :=
  match peeked p with
  | Some None => 0
  | Some (Some _) => 1
  | None => 0
  end.

(** mod.rs:128: the predicate given to [find]. *)
Definition keep_chunk (c : str) : bool :=
  negb (s_is_empty c) && negb (forallb is_comma (txt c)).

Fixpoint find_in (l : list str) : option str * list str :=
  match l with
  | [] => (None, [])
  | c :: r => if keep_chunk c then (Some c, r) else find_in r
  end.

(** [Peekable::find] (through [try_fold]) *)
Definition pk_find (p : peekable) : option str * peekable :=
  match peeked p with
  | Some None => (None, mkpeek None (inner p))
  | Some (Some c) => if keep_chunk c then (Some c, mkpeek None (inner p))
                     else let (r, l) := find_in (inner p) in (r, mkpeek None l)
  | None => let (r, l) := find_in (inner p) in (r, mkpeek None l)
  end.

(** mod.rs:109-113 *)
Record decomposer := mkdec { chunks : peekable; current_chunk : list span; d_input : str }.

(** mod.rs:153-161, 307-310 *)
Definition decompose (input : str) : decomposer :=
  mkdec (mkpeek None (split_chunks (txt input) (ptr input) [] (ptr input))) [] input.

Section Profile2.
Context (bm : build).

(** mod.rs:133-136 *)
Fixpoint shift_spans (offset : N) (l : list span) : outcome (list span) :=
  match l with
  | [] => Ret []
  | w :: r =>
      let! a := u32_add bm (sp_start w) offset in
      let! b := u32_add bm (sp_end w) offset in
      let! r' := shift_spans offset r in
      Ret (mkspan a b :: r')
  end.

(** mod.rs:118-140; the loop runs again only when a chunk produced no word *)
Fixpoint dec_next_loop (fuel : nat) (d : decomposer) : outcome (option span * decomposer) :=
  match fuel with
  | O => Diverge
  | S n =>
      match current_chunk d with
      | w :: r => Ret (Some w, mkdec (chunks d) r (d_input d))
      | [] =>
          let (c, p) := pk_find (chunks d) in
          match c with
          | None => Ret (None, mkdec p [] (d_input d))
          | Some chunk =>
              (* usize subtraction: chunks lie inside the input *)
              if ptr (d_input d) <=? ptr chunk then
                let! offset := to_u32 (ptr chunk - ptr (d_input d)) in
                let! words := decompose_single bm chunk in
                let! words := shift_spans offset words in
                dec_next_loop n (mkdec p words (d_input d))
              else Panic
          end
      end
  end.

Definition dec_next (d : decomposer) : outcome (option span * decomposer) :=
  dec_next_loop (S (S (S (List.length (inner (chunks d)))))) d.

(** mod.rs:142-149, lower bound (the upper bound is [None]) *)
Definition dec_size_hint (d : decomposer) : N :=
  N.of_nat (List.length (current_chunk d)) + pk_size_hint (chunks d).

(** mod.rs:163-165 *)
Definition slice_to_span (d : decomposer) (s : str) : outcome span :=
  span_from_embedded_slice bm (ptr (d_input d)) s.

(** mod.rs:214-226 *)
Definition next_no_decomposition (d : decomposer) : outcome (option span * decomposer) :=
  match current_chunk d with
  | w :: _ =>
      let start := sp_start w in
      let (c, p) := pk_peek (chunks d) in
      let! e := match c with
                | None => to_u32 (s_len (d_input d))
                | Some chunk => let! sp := slice_to_span d chunk in u32_sub bm (sp_start sp) 1
                end in
      Ret (Some (mkspan start e), mkdec p [] (d_input d))
  | [] =>
      let (c, p) := pk_next (chunks d) in
      match c with
      | None => Ret (None, mkdec p [] (d_input d))
      | Some chunk => let! sp := slice_to_span d chunk in
                      Ret (Some sp, mkdec p [] (d_input d))
      end
  end.

(** [decompose(input).collect::<Vec<_>>()]: call [next] until [None]. *)
Fixpoint dec_collect (fuel : nat) (d : decomposer) : outcome (list span) :=
  match fuel with
  | O => Diverge
  | S n =>
      let! (w, d') := dec_next d in
      match w with
      | None => Ret []
      | Some sp => let! l := dec_collect n d' in Ret (sp :: l)
      end
  end.

Definition decompose_all (input : str) : outcome (list span) :=
  dec_collect (S (S (List.length (txt input)))) (decompose input).
End Profile2.

(** DecomposeSpec.v -- an independent, purely functional description of word
    decomposition on lists of chars (no addresses, no iterator state):
    split at separators, then cut every chunk into words. *)
From Verif Require Import Base Peg Rules RulesApi PegMeta RulesTotal Span Decompose.

(** All maximal separator-free pieces, empty ones included. *)
Fixpoint split_seps (t : list char) : list (list char) :=
  match t with
  | [] => [[]]
  | c :: u =>
      if split_or_trim_condition c then [] :: split_seps u
      else match split_seps u with
           | x :: l => (c :: x) :: l
           | [] => [[c]]
           end
  end.

(** The pieces with their byte offsets; separators are one byte long. *)
Fixpoint chunks_off (cs : list (list char)) (o : N) : list (N * list char) :=
  match cs with
  | [] => []
  | c :: l => (o, c) :: chunks_off l (o + blen c + 1)
  end.

Definition chunks_of (t : list char) : list (N * list char) := chunks_off (split_seps t) 0.

(** Consecutive spans of consecutive words, from byte [o] on. *)
Fixpoint spans_of (o : N) (ws : list (list char)) : list span :=
  match ws with
  | [] => []
  | w :: l => mkspan o (o + blen w) :: spans_of (o + blen w) l
  end.

(** One word falling off the front of a chunk: what remains. *)
Definition fall_off_ev (t : list char) : option (list char) :=
  match ev (Call N_cmavo_minimal) t with
  | Some r => Some r
  | None => ev (Call N_explicitly_stressed_brivla_minimal) t
  end.

Definition post_word_ev (t : list char) : bool :=
  negb (accepts N_nucleus t) &&
  (accepts N_gismu t || accepts N_fuhivla t || accepts N_lujvo_minimal t || accepts N_cmavo_minimal t).

(** [cut a b] for [b] a suffix of [a]: the part of [a] before [b]. *)
Definition before (a b : list char) : list char :=
  firstn (List.length a - List.length b) a.

(** Words falling off the front, as many as possible, and the remainder. *)
Fixpoint fall (k : nat) (t : list char) : list (list char) * list char :=
  match k with
  | O => ([], t)
  | S k' => match fall_off_ev t with
            | None => ([], t)
            | Some r => let (ws, rest) := fall k' r in (before t r :: ws, rest)
            end
  end.

(** The words of one chunk (trailing commas belong to no word). *)
Definition chunk_words (t : list char) : list (list char) :=
  if simple_cmevla_check t then [t]
  else
    let (ws, rest) := fall (List.length t) t in
    let '(ws', rest') :=
      match ws with
      | [] => (ws, rest)
      | _ => if post_word_ev rest then (ws, rest) else (removelast ws, last ws [] ++ rest)
      end in
    let rest'' := trim_end_commas rest' in
    match rest'' with [] => ws' | _ => ws' ++ [rest''] end.

(** The words of a text, with their byte positions. *)
Definition text_words (t : list char) : list span :=
  flat_map (fun oc => spans_of (fst oc) (chunk_words (snd oc))) (chunks_of t).

(** SpecText.v -- vocabulary for the statements about texts: separators, gaps,
    chunks.  Specification only: nothing here is used by the model. *)
From Verif Require Import Base Span Decompose.

(** The separator characters, as documented at decompose/mod.rs:23-34. *)
Definition is_sep (c : char) : Prop := In c (lit ".?! " ++ [9; 10; 13]).
(** Consonant letters of Lojban, either case. *)
Definition is_consonant_letter (c : char) : Prop :=
  In c (lit "bcdfgjklmnprstvxzBCDFGJKLMNPRSTVXZ").

Definition no_sep (t : list char) : Prop := Forall (fun c => ~ is_sep c) t.
Definition all_commas (t : list char) : Prop := Forall (fun c => c = 44) t.

(** Text that belongs to no word: separators and commas. *)
Definition gap (g : list char) : Prop := Forall (fun c => is_sep c \/ c = 44) g.

(** Between two consecutive words: nothing at all, or at least one separator. *)
Definition gap_between (g : list char) : Prop :=
  gap g /\ (g = [] \/ exists c, In c g /\ is_sep c).

(** A proper word: no separator, and something that is not a comma. *)
Definition proper_word (w : list char) : Prop :=
  no_sep w /\ exists c, In c w /\ c <> 44.

(** [tiled first o t sps]: [t], which starts at byte [o], is an alternation of
    gaps and words, and [sps] are exactly the byte spans of the words. *)
Inductive tiled : bool -> N -> list char -> list span -> Prop :=
| tiled_end first o g : gap g -> tiled first o g []
| tiled_word (first : bool) o g w rest sps :
    (if first then gap g else gap_between g) -> proper_word w ->
    tiled false (o + blen g + blen w) rest sps ->
    tiled first o (g ++ w ++ rest) (mkspan (o + blen g) (o + blen g + blen w) :: sps).

(** [chunk_at t x c]: [c] is a chunk of [t], after the prefix [x]: a maximal
    separator-free piece. *)
Definition chunk_at (t x c : list char) : Prop :=
  no_sep c /\
  (x = [] \/ exists x' s, x = x' ++ [s] /\ is_sep s) /\
  exists y, t = x ++ c ++ y /\ (y = [] \/ exists s y', y = s :: y' /\ is_sep s).

(** Spans moved right by [n] bytes. *)
Definition shift_span (n : N) (s : span) : span := mkspan (n + sp_start s) (n + sp_end s).

(** Chunks joined by separators, with the chunk spans. *)
Inductive joined : N -> list char -> list span -> Prop :=
| joined_last o c : no_sep c -> joined o c [mkspan o (o + blen c)]
| joined_cons o c s rest sps : no_sep c -> is_sep s -> joined (o + blen c + 1) rest sps ->
    joined o (c ++ s :: rest) (mkspan o (o + blen c) :: sps).

(** [comma_edit t u]: [u] is obtained from [t] by inserting and removing commas,
    each directly before a char that is not a separator (so never after the
    last non-comma char of a chunk that had no trailing comma). *)
Inductive comma_edit : list char -> list char -> Prop :=
| ce_refl t : comma_edit t t
| ce_insert a c b : ~ is_sep c -> comma_edit (a ++ c :: b) (a ++ 44 :: c :: b)
| ce_sym t u : comma_edit t u -> comma_edit u t
| ce_trans t u v : comma_edit t u -> comma_edit u v -> comma_edit t v.

(** The text without its commas. *)
Definition letters (t : list char) : list char := filter (fun c => negb (c =? 44)) t.

(** [apostrophe_edit t u]: [u] is [t] with some [h]s and apostrophes exchanged. *)
Definition apostrophe_edit : list char -> list char -> Prop :=
  Forall2 (fun c d => c = d \/ (In c (lit "h'") /\ In d (lit "h'"))).

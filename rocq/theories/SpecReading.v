(** SpecReading.v -- when two texts are read alike.  Specification only. *)
From Verif Require Import Base Span Selmaho Decompose Classify Lex SpecText SpecLex Cst CstRules CstApi SpecCst.
Local Open Scope list_scope.

(** Two places in two texts where words of the same class and flag stand. *)
Definition same_word (s s' : str) (x x' : span) : Prop :=
  exists w w', span_slice x s = Some w /\ span_slice x' s' = Some w' /\ classify w = classify w'.

(** None of the words [ws] of [s] quotes what follows (zoi, me'oi, ..) or ends the text (fa'o). *)
Definition quote_free (s : str) (ws : list span) : Prop :=
  forall x w sel ex, In x ws -> span_slice x s = Some w -> classify w = Ret (sel, ex) -> is_plain sel.

(** Two results of the parser: trees made alike, or errors of the same kind at the same place. *)
Definition same_result (r r' : outcome (val + werror)) : Prop :=
  (exists v v', r = Ret (inl v) /\ r' = Ret (inl v') /\ same_shape v v') \/
  (exists e e', r = Ret (inr e) /\ r' = Ret (inr e') /\ same_error e e').

(** Two texts that the lexer and the parser take alike. *)
Definition read_alike (bm : build) (s s' : str) : Prop :=
  exists toks toks', lex_all bm s = Ret (map IOk toks) /\ lex_all bm s' = Ret (map IOk toks') /\
    Forall2 (fun t t' => selmaho t = selmaho t' /\ experimental t = experimental t' /\ same_word s s' (tspan t) (tspan t')) toks toks' /\
    same_result (cst_parse toks) (cst_parse toks').

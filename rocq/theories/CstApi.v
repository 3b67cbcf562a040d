(** CstApi.v -- [Cst::parse] of /repo/src/parse/cst/mod.rs and the way
    /repo/examples/main.rs uses it.  No proofs in this file. *)
From Verif Require Import Base Span Selmaho Lex Cst CstRules.

(** Recursion bound given to [grun]; CstTotal.v proves it is never reached. *)
Definition CST_D : nat := 140.
Definition cst_fuel (toks : list token) : nat := (CST_D * S (List.length toks))%nat.

(** cst/mod.rs:23-39: [nom::combinator::all_consuming] of the root rule, then
    [nom::Finish::finish], which forgets whether an error was a failure.
    The tree is allocated in an arena; the arena is not modelled. *)
Definition cst_parse (toks : list token) : outcome (val + werror) :=
  match grun crule (cst_fuel toks) al_Root toks with
  | COut => Diverge
  | COk [] root => Ret (inl root)
  | COk rest _ => Ret (inr (mkerr rest (Nom KEof)))
  | CErr e | CFail e => Ret (inr e)
  end.

(** examples/main.rs:62-85: lex, collect into [Result<Vec<_>, _>], parse. *)
Inductive pipeline_result :=
| PLexError (e : error)
| PParseError (e : werror)
| PTree (toks : list token) (root : val).

Definition pipeline (bm : build) (input : str) : outcome pipeline_result :=
  let! items := lex_all bm input in
  match sequence_items items with
  | inr e => Ret (PLexError e)
  | inl toks =>
      let! p := cst_parse toks in
      match p with
      | inl root => Ret (PTree toks root)
      | inr e => Ret (PParseError e)
      end
  end.

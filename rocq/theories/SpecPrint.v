(** SpecPrint.v -- what a user sees of a tree through the TreeNode trait *)
From Verif Require Import Base Span Selmaho Lex Cst CstApi SpecCst.

(** name, star, from where to where in the text, children *)
Inductive vtree := VT (name : string) (star : bool) (sp : option span) (kids : list vtree).

Definition extent (v : val) : option span :=
  match start_location v, end_location v with
  | Some a, Some b => Some (mkspan a b)
  | _, _ => None
  end.

(** What is seen of [v]; with [collapse], nodes with one child are seen as that child. *)
Inductive appears (collapse : bool) : val -> vtree -> Prop :=
| appear_one v0 v ts : (if collapse then tip v0 v else v = v0) ->
    Forall2 (appears collapse) (children v) ts ->
    appears collapse v0 (VT (node_name v) (node_experimental v) (extent v) ts).

(** A printed line without the quoted part of the text: indentation, name, star, span. *)
Definition head := (N * string * bool * option span)%type.
Definition strip (l : line) : head := (l_level l, l_name l, l_star l, option_map fst (l_text l)).

(** The tokens and the tree of a text. *)
Definition parsed (bm : build) (s : str) (toks : list token) (root : val) : Prop :=
  exists items, lex_all bm s = Ret items /\ items = map IOk toks /\ cst_parse toks = Ret (inl root).

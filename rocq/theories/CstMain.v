(** CstMain.v -- what /repo/examples/main.rs does with one line of input when
    it is asked for the syntax tree.  No proofs in this file. *)
From Verif Require Import Base Span Selmaho Lex Cst CstRules CstApi.

(** Number of values a tree is made of: recursion bound for [print_node]. *)
Fixpoint tree_size (v : val) : nat :=
  match v with
  | VTok _ | VSpan _ _ => 1
  | VNode _ l | VPass l => S ((fix go l := match l with [] => 0 | x :: r => tree_size x + go r end) l)
  end%nat.

(** examples/main.rs:104-142 *)
Definition print_tree (collapse : bool) (input : str) (root : val) : outcome (list line) :=
  match print_node (tree_size root) collapse input 0 root with Some r => r | None => Diverge end.

(** What is printed: examples/main.rs:64-100 *)
Inductive report :=
| RLexError (e : error)
| RTree (lines : list line)
| RUnlexed (t : token) (content : str)
| RParseError (e : werror).

(** examples/main.rs:57-101; printing of the decomposition and of the tokens
    (the options [decompose] and [lex]) and of the arena size is left out. *)
Definition main_cst (bm : build) (collapse : bool) (input : str) : outcome report :=
  let! p := pipeline bm input in
  match p with
  | PLexError e => Ret (RLexError e)
  | PTree _ root => let! lines := print_tree collapse input root in Ret (RTree lines)
  | PParseError e =>
      match location e with
      | t :: _ =>
          if sel_eqb (selmaho t) S_AnyText
          then let! content := unwrap (span_slice (tspan t) input) in Ret (RUnlexed t content)
          else Ret (RParseError e)
      | [] => Ret (RParseError e)
      end
  end.

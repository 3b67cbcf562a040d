(** History.v -- call histories of a [Decomposer]: any finite sequence of
    [next] and [next_no_decomposition] calls.  No proofs in this file. *)
From Verif Require Import Base Span Decompose.

Inductive dop := ONext | ONoDec.

Definition dstep (bm : build) (op : dop) (d : decomposer) : outcome (option span * decomposer) :=
  match op with ONext => dec_next bm d | ONoDec => next_no_decomposition bm d end.

(** The results of the calls, and the final state. *)
Fixpoint drun (bm : build) (ops : list dop) (d : decomposer)
    : outcome (list (option span) * decomposer) :=
  match ops with
  | [] => Ret ([], d)
  | op :: ops' =>
      let! (r, d1) := dstep bm op d in
      let! (rs, d2) := drun bm ops' d1 in
      Ret (r :: rs, d2)
  end.

(** The spans among the results. *)
Fixpoint somes {A} (l : list (option A)) : list A :=
  match l with [] => [] | Some a :: r => a :: somes r | None :: r => somes r end.

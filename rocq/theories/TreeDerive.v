(** TreeDerive.v -- the traits [TreeNode] and [TreeNodeChild]
    (/repo/src/parse/tree_node.rs), their handwritten impls, and the derive macro
    of /repo/macros/src/derive_tree_node.rs as a function on declarations.  A value
    is represented by the answers its methods give.  No proofs in this file. *)
From Verif Require Import Base Span Selmaho Lex Cst Derive.

(** [&dyn TreeNode], tree_node.rs:4-27: the results of [name], [experimental],
    [start_location], [end_location], and the nodes [for_each_child] calls its
    closure with, in order *)
Inductive node := Node (n_name : string) (n_exp : bool) (n_start n_end : option N) (n_kids : list node).
Definition n_name (x : node) := let 'Node a _ _ _ _ := x in a.
Definition n_exp (x : node) := let 'Node _ a _ _ _ := x in a.
Definition n_start (x : node) := let 'Node _ _ a _ _ := x in a.
Definition n_end (x : node) := let 'Node _ _ _ a _ := x in a.
Definition n_kids (x : node) := let 'Node _ _ _ _ a := x in a.

(** [TreeNodeChild], tree_node.rs:93-98; [c_nodes]: what [invoke_with_self] calls its closure with *)
Record child := mkchild { c_nodes : list node; c_exp : bool; c_start : option N; c_end : option N }.

(** * Leaves *)

(** [impl TreeNode for Token], tree_node.rs:29-47 *)
Definition token_node (t : token) : node :=
  Node (as_repr (selmaho t)) (experimental t) (Some (sp_start (tspan t))) (Some (sp_end (tspan t))) [].

(** the token types' impls, cst/rules/selmaho.rs:39-57, :108-126; [Bu] :419-437 *)
Definition selmaho_node (s : Selmaho) (ex : bool) (sp : span) : node :=
  Node (as_repr s) ex (Some (sp_start sp)) (Some (sp_end sp)) [].

(** [ZoiDelimiter], [ZoiText]: cst/rules/mod.rs:881-899, :904-922 *)
Definition zoi_node (name : string) (sp : span) : node :=
  Node name false (Some (sp_start sp)) (Some (sp_end sp)) [].

(** * Impls for containers.  Those for [&T] and [Box<T>] delegate to [T]
    (tree_node.rs:49-91, [box_impl] :118-142, derive_tree_node.rs:187-223) and are the identity here. *)

(** the blanket [impl<T: TreeNode> TreeNodeChild for T], tree_node.rs:100-116 *)
Definition node_child (x : node) : child := mkchild [x] (n_exp x) (n_start x) (n_end x).

(** [iterator_impls], tree_node.rs:145-173: slices, and options by their iterator *)
Definition slice_child (l : list child) : child :=
  mkchild (flat_map c_nodes l) (existsb c_exp l) (find_map c_start l) (find_map c_end (rev l)).
Definition option_child (o : option child) : child := slice_child (match o with Some c => [c] | None => [] end).

(** statements [if let Some(location) = .. { return Some(location); }] in a row, then [None] *)
Fixpoint first_return (l : list (option N)) : option N :=
  match l with
  | [] => None
  | Some x :: _ => Some x
  | None :: l' => first_return l'
  end.

(** [tuple_impls], tree_node.rs:175-216 *)
Definition tuple_child (l : list child) : child :=
  mkchild (List.concat (map c_nodes l)) (fold_left orb (map c_exp l) false)
    (first_return (map c_start l)) (find_map c_end (rev l)).

(** [Separated], cst/rules/helpers.rs:49-84 *)
Definition separated_node (first : child) (rest : list (child * child)) : node :=
  Node "Separated"
    (c_exp first || existsb (fun '(separator, item) => c_exp separator || c_exp item) rest)
    (or_else (c_start first) (find_map (fun '(separator, item) => or_else (c_start separator) (c_start item)) rest))
    (or_else (find_map (fun '(separator, item) => or_else (c_end item) (c_end separator)) (rev rest)) (c_end first))
    (c_nodes first ++ flat_map (fun '(separator, item) => c_nodes separator ++ c_nodes item) rest).

(** * The derive macro *)

(** a [#[tree_node(..)]] attribute; [TBad]: anything [ContainerAttributes::get]
    aborts or panics on (derive_tree_node.rs:78-101) *)
Inductive tattr := TPassthrough | TName (s : string) | TBad.

(** ContainerAttributes::get, derive_tree_node.rs:68-106: name, passthrough_child *)
Fixpoint get_tattrs (l : list tattr) (name : option string) (pass : bool) : option (option string * bool) :=
  match l with
  | [] => Some (name, pass)
  | TPassthrough :: l' => get_tattrs l' name true
  | TName s :: l' => get_tattrs l' (Some s) pass
  | TBad :: _ => None
  end.

(** the fields of a declaration: their names, or their number *)
Inductive tshape := SNamed (names : list string) | SUnnamed (n : nat) | SUnit.
Inductive tdata := TStruct (f : tshape) | TEnum (vs : list (string * tshape)) | TUnion.
Record tdecl := mktdecl { t_name : string; t_attrs : list tattr; t_data : tdata }.

(** values: the fields by name or in order *)
Inductive tfields := FNamed (l : list (string * child)) | FUnnamed (l : list child) | FUnit.
Inductive tvalue := SVal (f : tfields) | EVal (variant : string) (f : tfields).

Definition field_called (l : list (string * child)) (name : string) : option child :=
  option_map snd (find (fun p => String.eqb (fst p) name) l).

Fixpoint all_some {A} (l : list (option A)) : option (list A) :=
  match l with
  | [] => Some []
  | Some x :: l' => option_map (cons x) (all_some l')
  | None :: _ => None
  end.

(** make_destructure and make_fields, derive_tree_node.rs:36-60, :289-305: the
    variables field_0, field_1, .. in order; [None]: a value of another type *)
Definition destructure (s : tshape) (f : tfields) : option (list child) :=
  match s, f with
  | SNamed names, FNamed l => all_some (map (field_called l) names)
  | SUnnamed n, FUnnamed l => if Nat.eqb (List.length l) n then Some l else None
  | SUnit, FUnit => Some []
  | _, _ => None
  end.

(** implement, implement_struct, implement_enum, derive_tree_node.rs:278-340 *)
Definition implement {A} (d : tdata) (body : list child -> A) (v : tvalue) : option A :=
  match d, v with
  | TStruct s, SVal f => option_map body (destructure s f)
  | TEnum vs, EVal variant f =>
      match find (fun p => String.eqb (fst p) variant) vs with
      | Some (_, s) => option_map body (destructure s f)
      | None => None
      end
  | _, _ => None
  end.

(** the four bodies, derive_tree_node.rs:125-164 *)
Definition experimental_impl (fs : list child) : bool := fold_left orb (map c_exp fs) false.
Definition start_location_impl (fs : list child) : option N := first_return (map c_start fs).
Definition end_location_impl (fs : list child) : option N := first_return (map c_end (rev fs)).
Definition for_each_child_impl (fs : list child) : list node := List.concat (map c_nodes fs).

(** "name_impl", derive_tree_node.rs:227-248: the [name] attribute is not used *)
Definition name_impl (d : tdecl) (v : tvalue) : string :=
  match t_data d, v with
  | TEnum _, EVal variant _ => (t_name d ++ "::" ++ variant)%string
  | _, _ => t_name d
  end.

(** what the macro implements: nothing (it aborts), [TreeNode], or [TreeNodeChild] *)
Inductive tderived := TRejected | TNodeImpl (f : tvalue -> option node) | TChildImpl (f : tvalue -> option child).

(** derive, derive_tree_node.rs:108-276 *)
Definition tree_derive (d : tdecl) : tderived :=
  match get_tattrs (t_attrs d) None false, t_data d with
  | None, _ | _, TUnion => TRejected
  | Some (_, true), data => TChildImpl (implement data (fun fs =>
      mkchild (for_each_child_impl fs) (experimental_impl fs) (start_location_impl fs) (end_location_impl fs)))
  | Some (_, false), data => TNodeImpl (fun v => implement data (fun fs =>
      Node (name_impl d v) (experimental_impl fs) (start_location_impl fs) (end_location_impl fs) (for_each_child_impl fs)) v)
  end.

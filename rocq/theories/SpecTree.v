(** SpecTree.v -- vocabulary of the statements about [TreeNode] and its derive.
    Specification only. *)
From Verif Require Import Base Span Selmaho Lex Cst Derive TreeDerive.
Local Open Scope list_scope.

(** The first answer there is, going through [l] from the front. *)
Definition first_of {A} (f : A -> option N) (l : list A) (r : option N) : Prop :=
  match r with
  | None => Forall (fun x => f x = None) l
  | Some a => exists p x q, l = p ++ x :: q /\ f x = Some a /\ Forall (fun y => f y = None) p
  end.

(** The last answer there is. *)
Definition last_of {A} (f : A -> option N) (l : list A) (r : option N) : Prop :=
  match r with
  | None => Forall (fun x => f x = None) l
  | Some a => exists p x q, l = p ++ x :: q /\ f x = Some a /\ Forall (fun y => f y = None) q
  end.

(** What deriving promises: the answers of a type whose fields answer [cs]. *)
Definition made_of (cs : list child) (nodes : list node) (ex : bool) (st en : option N) : Prop :=
  nodes = List.concat (map c_nodes cs) /\ (ex = true <-> exists c, In c cs /\ c_exp c = true) /\
  first_of c_start cs st /\ last_of c_end cs en.

(** The fields [cs] of a value, in the order of the declaration. *)
Definition holds_fields (s : tshape) (f : tfields) (cs : list child) : Prop :=
  match s, f with
  | SNamed names, FNamed l => NoDup (map fst l) /\ Forall2 (fun n c => In (n, c) l) names cs
  | SUnnamed n, FUnnamed l => l = cs /\ List.length cs = n
  | SUnit, FUnit => cs = []
  | _, _ => False
  end.

(** [v] is a value of type [d] with fields [cs]; the name of its node *)
Definition is_value (d : tdecl) (v : tvalue) (cs : list child) (name : string) : Prop :=
  match t_data d, v with
  | TStruct s, SVal f => name = t_name d /\ holds_fields s f cs
  | TEnum vs, EVal x f => name = (t_name d ++ "::" ++ x)%string /\
      NoDup (map fst vs) /\ exists s, In (x, s) vs /\ holds_fields s f cs
  | _, _ => False
  end.

(** tree_node.rs:15-16, :20-21: "should both return Some or both return None" *)
Definition both_or_neither (a b : option N) : Prop := a = None <-> b = None.
Definition lawful_child (c : child) : Prop := both_or_neither (c_start c) (c_end c).

(** A child says of its nodes what they say themselves. *)
Definition honest (nodes : list node) (ex : bool) (st en : option N) : Prop :=
  ex = existsb n_exp nodes /\ first_of n_start nodes st /\ last_of n_end nodes en.
Definition honest_child (c : child) : Prop := honest (c_nodes c) (c_exp c) (c_start c) (c_end c).

(** Nodes that obey the law and, unless they are words, say what their children
    say, all the way down. *)
Inductive lawful : node -> Prop :=
| lawful_node n ex st en kids : both_or_neither st en -> (kids = [] -> ex = true -> st <> None) ->
    (kids <> [] -> honest kids ex st en) -> Forall lawful kids -> lawful (Node n ex st en kids).

(** What is seen of a value of the parser through the trait's methods. *)
Inductive sees : val -> node -> Prop :=
| sees_one v kids : Forall2 sees (children v) kids ->
    sees v (Node (node_name v) (node_experimental v) (start_location v) (end_location v) kids).

(** The impls behind a value of the parser.  [VTok]: a token or one of the token
    types; [VNode]: a derived impl, or Separated's; [VPass]: tuples, slices,
    options and derived pass-through types, written [c]. *)
Inductive answers : val -> child -> Prop :=
| an_token t : answers (VTok t) (node_child (token_node t))
| an_selmaho t : answers (VTok t) (node_child (selmaho_node (selmaho t) (experimental t) (tspan t)))
| an_zoi n sp : answers (VSpan n sp) (node_child (zoi_node n sp))
| an_derived d v name l cs g x : Forall2 answers l cs -> is_value d v cs name ->
    tree_derive d = TNodeImpl g -> g v = Some x -> answers (VNode name l) (node_child x)
| an_separated vf l f rest : answers vf f ->
    Forall2 (fun v p => exists a b, v = VPass [a; b] /\ answers a (fst p) /\ answers b (snd p)) l rest ->
    answers (VNode "Separated" [vf; VPass l]) (node_child (separated_node f rest))
| an_tuple l cs : Forall2 answers l cs -> answers (VPass l) (tuple_child cs)
| an_slice l cs : Forall2 answers l cs -> answers (VPass l) (slice_child cs)
| an_some v c : answers v c -> answers (VPass [v]) (option_child (Some c))
| an_none : answers (VPass []) (option_child None)
| an_pass d v name l cs g c : Forall2 answers l cs -> is_value d v cs name ->
    tree_derive d = TChildImpl g -> g v = Some c -> answers (VPass l) c.

(** The declaration [d] of Derive.v as derive(TreeNode) reads it, whatever the
    names of its fields. *)
Definition tree_shape (f : fields) (s : tshape) : Prop :=
  match f, s with
  | Named l, SNamed names => List.length names = List.length l /\ NoDup names
  | Unnamed l, SUnnamed n => n = List.length l
  | Unit, SUnit => True
  | _, _ => False
  end.
Definition tree_decl (d : decl) (td : tdecl) : Prop :=
  t_name td = d_name d /\
  t_attrs td = match d_tree d with TKPass => [TPassthrough] | _ => [] end /\
  match d_data d, t_data td with
  | DStruct f, TStruct s => tree_shape f s
  | DEnum vs, TEnum ts => Forall2 (fun v t => fst t = v_name v /\ tree_shape (v_fields v) (snd t)) vs ts
  | _, _ => False
  end.

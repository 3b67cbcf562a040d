(** SpecDerive.v -- what the attributes of [#[derive(Parse)]] promise, said without
    the combinators the generated code uses.  Only the shape of declarations and
    results is taken from the model. *)
From Verif Require Import Base Span Selmaho Lex Cst Derive.

Section Spec.
Context (env : ty -> parser) (withs : string -> parser -> parser) (conds : string -> val -> bool).

(** the parser a field names: that of its type, or what its [with] makes of the
    parser of its element type *)
Inductive field_parser (f : field) : parser -> Prop :=
| FPlain : (forall w, ~ In (AWith w) (f_attrs f)) -> field_parser f (env (f_ty f))
| FWith w : In (AWith w) (f_attrs f) -> field_parser f (withs w (env (elem_type (f_ty f)))).

(** the [not]s of a field: none of these types can be parsed here *)
Definition nots_hold (f : field) (i : list token) : Prop :=
  forall t, In (ANot t) (f_attrs f) -> exists e, env t i = CErr e.

(** the field reads [v] from [i] and leaves [r] *)
Definition reads (f : field) (i r : list token) (v : val) : Prop :=
  nots_hold f i /\ exists p, field_parser f p /\ p i = COk r v.

(** fields one after another *)
Inductive reads_all : list field -> list token -> list token -> list val -> Prop :=
| RNil i : reads_all [] i i []
| RCons f fs i r r' v vs : reads f i r v -> reads_all fs r r' vs -> reads_all (f :: fs) i r' (v :: vs).

(** the value of a struct (or variant) named [name] *)
Definition value_of (k : tree_kind) (name : string) (vs : list val) : val :=
  match k with
  | TKNode => VNode name vs
  | TKPass => VPass vs
  | TKSpanLeaf => match vs with
                  | [VSpan _ sp] => VSpan name sp
                  | _ => VNode name vs
                  end
  end.

(** what the attributes of a container ask of a result *)
Definition container_holds (attrs : list pattr) (r : list token) (v : val) : Prop :=
  (forall c, In (APostCond c) attrs -> conds c v = true) /\
  (forall t, In (ANotAfter t) attrs -> exists e, env t r = CErr e).

(** ** Fatal failures *)

Definition nots_in (l : list pattr) : list ty := flat_map (fun a => match a with ANot t => [t] | _ => [] end) l.
Definition not_afters_in (l : list pattr) : list ty := flat_map (fun a => match a with ANotAfter t => [t] | _ => [] end) l.

(** trying these types in turn, to see that none can be parsed, fails fatally *)
Definition try_fails (ts : list ty) (i : list token) (e : werror) : Prop :=
  exists pre t post, ts = pre ++ t :: post /\ (forall u, In u pre -> exists x, env u i = CErr x) /\ env t i = CFail e.

(** the field fails fatally: one of its [not]s does, or its parser does, or it is [cut] and its
    parser does not match *)
Definition field_fails (f : field) (i : list token) (e : werror) : Prop :=
  try_fails (nots_in (f_attrs f)) i e \/
  nots_hold f i /\ exists q, field_parser f q /\ (q i = CFail e \/ In ACut (f_attrs f) /\ q i = CErr e).

Definition fields_in (fs : fields) : list field := match fs with Named l | Unnamed l => l | Unit => [] end.

(** a variant, declared as a struct of its own *)
Definition as_struct (d : decl) (x : variant) : decl :=
  mkdecl (d_name d ++ "::" ++ v_name x)%string (d_params d) (d_tree d) (v_attrs x) (DStruct (v_fields x)).
End Spec.

(** a parser that does not match here *)
Definition rejects (p : parser) (i : list token) : Prop := exists e, p i = CErr e.

(** a parser that does not fail fatally here *)
Definition not_fatal (q : parser) (i : list token) : Prop := (exists r v, q i = COk r v) \/ rejects q i.

(** the result of [p], if it is one, is worse *)
Definition beaten (R : nat -> nat -> Prop) (r i : list token) (p : parser) : Prop :=
  (exists e, p i = CErr e) \/ (exists r' v', p i = COk r' v' /\ R (List.length r) (List.length r')).

(** ** Which declarations can be derived *)

(** how many [with]s there are *)
Fixpoint withs_in (l : list pattr) : nat :=
  match l with [] => 0 | AWith _ :: l' => S (withs_in l') | _ :: l' => withs_in l' end%nat.

(** attributes of a container *)
Definition container_fine (l : list pattr) : Prop :=
  ~ In ACut l /\ (forall t, ~ In (ANot t) l) /\ (withs_in l <= 1)%nat.

(** of a field: no [not_after], no [postcond], no [longest], no [must_consume] *)
Definition field_attr (a : pattr) : Prop :=
  match a with ACut | AWith _ | ANot _ => True | _ => False end.
Definition field_fine (f : field) : Prop := (withs_in (f_attrs f) <= 1)%nat /\ forall a, In a (f_attrs f) -> field_attr a.

(** a struct, or a variant, that can be derived *)
Definition fields_fine (fs : fields) (nonempty : Prop) : Prop :=
  fs <> Unit /\ Forall field_fine (fields_in fs) /\ (nonempty -> fields_in fs <> []).

(** a variant has no attribute but [must_consume] *)
Definition variant_fine (x : variant) : Prop :=
  (forall a, In a (v_attrs x) -> a = ANonEmpty) /\ fields_fine (v_fields x) (In ANonEmpty (v_attrs x)).

(** [longest] and [postcond] do not go together on an enum *)
Definition data_fine (d : decl) : Prop :=
  match d_data d with
  | DStruct fs => fields_fine fs (In ANonEmpty (d_attrs d))
  | DEnum vs => vs <> [] /\ Forall variant_fine vs /\
                ~ (In ALongest (d_attrs d) /\ exists c, In (APostCond c) (d_attrs d))
  | DUnion => False
  end.

(** the tokens a value was made of *)
Inductive made_of : val -> list token -> Prop :=
| MTok t : made_of (VTok t) [t]
| MSpan n t : made_of (VSpan n (tspan t)) [t]
| MNode n vs m : made_of_all vs m -> made_of (VNode n vs) m
| MPass vs m : made_of_all vs m -> made_of (VPass vs) m
with made_of_all : list val -> list token -> Prop :=
| MNil : made_of_all [] []
| MCons v vs m m' : made_of v m -> made_of_all vs m' -> made_of_all (v :: vs) (m ++ m').

(** a parser that takes a prefix of its input and makes its value of all of it *)
Definition takes_prefix (p : parser) : Prop :=
  forall i r v, p i = COk r v -> exists m, i = m ++ r /\ made_of v m.

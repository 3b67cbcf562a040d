(** Derive.v -- the derive macro of /repo/macros/src/derive_parse.rs: from the
    declaration of a struct or enum, with its attributes, to the parser the
    generated [Parse] impl runs.  The macro is modelled as a function on
    declarations; the generated code as a function on tokens ([parser]), written
    with nom 7's combinators as functions.  Lifetimes, the arena and Rust's type
    checker are not modelled.  No proofs in this file. *)
From Verif Require Import Base Span Selmaho Lex Cst.

(** [impl nom::Parser<&[Token], T, WithLocation>]; [COut] is not a Rust result,
    the parsers of the crate never return it (Props_Derive.v) *)
Definition parser := list token -> cres.

(** * nom's combinators as functions *)

(** nom::sequence::tuple; the value lists the components *)
Fixpoint p_tuple (l : list parser) : parser := fun i =>
  match l with
  | [] => COk i (VPass [])
  | p :: ps => match p i with
               | COk r v => match p_tuple ps r with
                            | COk r' w => COk r' (vcons v w)
                            | other => other
                            end
               | other => other
               end
  end.

(** nom::branch::alt of two; errors are combined by [ParseError::or]
    (cst/error.rs:75-94), failures stop it *)
Definition p_or (a b : parser) : parser := fun i =>
  match a i with
  | CErr ea => match b i with
               | CErr eb => CErr (err_or ea eb)
               | other => other
               end
  | other => other
  end.

(** nom::branch::alt((a, l..)) *)
Definition p_alt (a : parser) (l : list parser) : parser := fold_left p_or l a.

(** nom::combinator::opt *)
Definition p_opt (p : parser) : parser := fun i =>
  match p i with
  | COk r v => COk r (VPass [v])
  | CErr _ => COk i (VPass [])
  | other => other
  end.

(** The loop of nom::multi::many0 and many1.  A parser that returned more input
    than it was given would make nom go on; no parser of tokens does, and
    [COut] stands for that case. *)
Fixpoint loop_fuel (fuel : nat) (k : nom_kind) (p : parser) (i : list token) : cres :=
  match fuel with
  | O => COut
  | S n =>
      match p i with
      | COk r v =>
          if same_len r i then CErr (mkerr i (Nom k))
          else if Nat.ltb (List.length r) (List.length i) then
            match loop_fuel n k p r with
            | COk r' w => COk r' (vcons v w)
            | other => other
            end
          else COut
      | CErr _ => COk i (VPass [])
      | other => other
      end
  end.
Definition p_loop (k : nom_kind) (p : parser) : parser := fun i => loop_fuel (S (List.length i)) k p i.

(** nom::multi::many0, many1 *)
Definition p_many0 (p : parser) : parser := p_loop KMany0 p.
Definition p_many1 (p : parser) : parser := fun i =>
  match p i with
  | COk r v => match p_loop KMany1 p r with
               | COk r' w => COk r' (vcons v w)
               | other => other
               end
  | other => other
  end.

(** nom::multi::many_till; the value is (items, end) *)
Fixpoint till_fuel (fuel : nat) (f g : parser) (i : list token) : cres :=
  match fuel with
  | O => COut
  | S n =>
      match g i with
      | COk r v => COk r (VPass [VPass []; v])
      | CErr _ =>
          match f i with
          | COk r v =>
              if same_len r i then CErr (mkerr r (Nom KManyTill))
              else if Nat.ltb (List.length r) (List.length i) then
                match till_fuel n f g r with
                | COk r' w => COk r' (match w with VPass [VPass l; x] => VPass [VPass (v :: l); x] | _ => w end)
                | other => other
                end
              else COut
          | other => other
          end
      | other => other
      end
  end.
Definition p_many_till (f g : parser) : parser := fun i => till_fuel (S (List.length i)) f g i.

(** tuple((not(p), e)), keeping the second *)
Definition p_not_then (p e : parser) : parser := fun i =>
  match p i with
  | COk _ _ => CErr (mkerr i (Nom KNot))
  | CErr _ => e i
  | other => other
  end.

(** tuple((e, not(p))), keeping the first *)
Definition p_not_after (e p : parser) : parser := fun i =>
  match e i with
  | COk r v => match p r with
               | COk _ _ => CErr (mkerr r (Nom KNot))
               | CErr _ => COk r v
               | other => other
               end
  | other => other
  end.

(** nom::combinator::cut, map *)
Definition p_cut (p : parser) : parser := fun i => match p i with CErr x => CFail x | other => other end.
Definition p_map (f : val -> val) (p : parser) : parser := fun i =>
  match p i with COk r v => COk r (f v) | other => other end.

(** * Declarations *)

(** Rust types, without lifetimes *)
Inductive ty :=
| TyName (n : string) (args : list ty)   (* a path with type arguments; [Self]; a type parameter *)
| TyRef (t : ty)                         (* &'arena T *)
| TySlice (t : ty)                       (* [T] *)
| TyOption (t : ty)
| TyTuple (l : list ty).

(** derive_parse.rs:467-475; string literals are kept as strings, those that
    hold types as types *)
Inductive pattr :=
| ACut
| AWith (w : string)
| ANot (t : ty)
| ANotAfter (t : ty)
| APostCond (cond : string)
| ALongest
| ANonEmpty.

Record field := mkfield { f_ty : ty; f_attrs : list pattr }.

Inductive fields := Named (l : list field) | Unnamed (l : list field) | Unit.

Record variant := mkvariant { v_name : string; v_attrs : list pattr; v_fields : fields }.

Inductive data := DStruct (f : fields) | DEnum (vs : list variant) | DUnion.

(** How values of the type appear in the tree: a [TreeNode] (derived, or written
    by hand to the same effect), [#[tree_node(passthrough_child)]], or one of
    the leaves holding a [Span] (cst/rules/mod.rs:877-926). *)
Inductive tree_kind := TKNode | TKPass | TKSpanLeaf.

Record decl := mkdecl { d_name : string; d_params : list string; d_tree : tree_kind;
                        d_attrs : list pattr; d_data : data }.

(** * Attributes.  [None]: the macro calls [abort!] *)

Record container_attrs := mkca { c_after_nots : list ty; c_with : option string; c_post_conds : list string;
                                 c_longest : bool; c_must_consume : bool }.

(** ContainerAttributes::get, derive_parse.rs:376-396 *)
Fixpoint get_container (l : list pattr) (ret : container_attrs) : option container_attrs :=
  match l with
  | [] => Some ret
  | a :: l' =>
      let '(mkca an w pc lg mc) := ret in
      match a with
      | ANot _ | ACut => None
      | ANotAfter t => get_container l' (mkca (an ++ [t]) w pc lg mc)
      | APostCond c => get_container l' (mkca an w (pc ++ [c]) lg mc)
      | AWith s => match w with
                   | Some _ => None
                   | None => get_container l' (mkca an (Some s) pc lg mc)
                   end
      | ALongest => get_container l' (mkca an w pc true mc)
      | ANonEmpty => get_container l' (mkca an w pc lg true)
      end
  end.
Definition container_of (l : list pattr) : option container_attrs :=
  get_container l (mkca [] None [] false false).

Record field_attrs := mkfa { fa_cut : bool; fa_nots : list ty; fa_after_nots : list ty; fa_with : option string }.

(** FieldAttributes::get, derive_parse.rs:406-436 *)
Fixpoint get_field (l : list pattr) (ret : field_attrs) : option field_attrs :=
  match l with
  | [] => Some ret
  | a :: l' =>
      let '(mkfa c ns an w) := ret in
      match a with
      | ANot t => get_field l' (mkfa c (ns ++ [t]) an w)
      | ANotAfter t => get_field l' (mkfa c ns (an ++ [t]) w)
      | ACut => get_field l' (mkfa true ns an w)
      | AWith s => match w with
                   | Some _ => None
                   | None => get_field l' (mkfa c ns an (Some s))
                   end
      | APostCond _ | ALongest | ANonEmpty => None
      end
  end.
Definition field_attrs_of (l : list pattr) : option field_attrs := get_field l (mkfa false [] [] None).

(** VariantAttributes::get, derive_parse.rs:449-465 *)
Fixpoint get_variant (l : list pattr) (must_consume : bool) : option bool :=
  match l with
  | [] => Some must_consume
  | ANonEmpty :: l' => get_variant l' true
  | _ :: _ => None
  end.
Definition variant_attrs_of (l : list pattr) : option bool := get_variant l false.

(** * The generated code *)

(** What deriving gives: [Rejected] when the macro aborts or its output is not
    Rust; [Panics] for unit structs, whose parser is [todo!()]
    (derive_parse.rs:272-277). *)
Inductive derived := Rejected | Panics | Parser (p : parser).

(** the name [TreeNode::name] gives, derive_tree_node.rs:227-248 *)
Definition node_name_of (d : decl) (v : option variant) : string :=
  match v with
  | None => d_name d
  | Some v => (d_name d ++ "::" ++ v_name v)%string
  end.

(** what is built from the fields: the value of the struct or variant *)
Definition construct (d : decl) (v : option variant) (fs : val) : val :=
  match d_tree d with
  | TKNode => VNode (node_name_of d v) (fields_of fs)
  | TKPass => fs
  | TKSpanLeaf => match fields_of fs with
                  | [VSpan _ sp] => VSpan (d_name d) sp
                  | _ => VNode (d_name d) (fields_of fs)
                  end
  end.

(** [#constructor.to_token_stream().to_string()], derive_parse.rs:300, :144 *)
Definition constructor_name (v : option variant) : string :=
  match v with
  | None => "Self"
  | Some v => ("Self :: " ++ v_name v)%string
  end.

Section Derive.
(** [T::parse]; the function a [with] string denotes; what the parser of a
    container [with] does (it is given [Parse::parse] at a type Rust infers);
    the closure a [postcond] string denotes *)
Context (env : ty -> parser) (withs : string -> parser -> parser)
        (container_with : string -> parser) (conds : string -> val -> bool).

(** wrap_must_consume, derive_parse.rs:307-320 *)
Definition p_must_consume (name : string) (p : parser) : parser := fun i =>
  match p i with
  | COk r v => if same_len r i then CErr (mkerr i (Empty name)) else COk r v
  | other => other
  end.

(** The type at which [Parse::parse] is passed to a field's [with]: Rust infers
    it; for [&[T]], the only type [with] is used at, it is [T]. *)
Definition elem_type (t : ty) : ty := match t with TyRef (TySlice t') => t' | _ => t end.

(** one of [make_elements], derive_parse.rs:322-365.  A field with [not_after]
    expands to [nom::combinator:not(..)], which is not Rust (:350). *)
Definition element (f : field) : option parser :=
  match field_attrs_of (f_attrs f) with
  | None => None
  | Some (mkfa cut nots after_nots w) =>
      let inner := match w with
                   | None => env (f_ty f)
                   | Some s => withs s (env (elem_type (f_ty f)))
                   end in
      let actual := if cut then p_cut inner else inner in
      match after_nots with
      | [] => Some (fold_right (fun t p => p_not_then (env t) p) actual nots)
      | _ :: _ => None
      end
  end.

Fixpoint elements (l : list field) : option (list parser) :=
  match l with
  | [] => Some []
  | f :: l' => match element f, elements l' with
               | Some p, Some ps => Some (p :: ps)
               | _, _ => None
               end
  end.

(** implement_struct, derive_parse.rs:246-305 *)
Definition implement_struct (d : decl) (v : option variant) (fs : fields) (must_consume : bool) : derived :=
  match fs with
  | Unit => Panics
  | Named l | Unnamed l =>
      match elements l with
      | None => Rejected
      | Some [] => if must_consume then Rejected else Parser (fun i => COk i (construct d v (VPass [])))
      | Some ps =>
          let inner := p_map (construct d v) (p_tuple ps) in
          Parser (if must_consume then p_must_consume (constructor_name v) inner else inner)
      end
  end.

(** the branches of an enum, derive_parse.rs:134-149; unit variants abort *)
Fixpoint branches (d : decl) (vs : list variant) : option (list parser) :=
  match vs with
  | [] => Some []
  | v :: vs' =>
      match variant_attrs_of (v_attrs v), v_fields v with
      | None, _ | _, Unit => None
      | Some mc, fs =>
          match implement_struct d (Some v) fs mc, branches d vs' with
          | Parser p, Some ps => Some (p :: ps)
          | _, _ => None
          end
      end
  end.

(** the results of the branches of a [longest] enum, in order, unless one of
    them is a failure (or no Rust result), derive_parse.rs:152-164 *)
Fixpoint run_all (ps : list parser) (i : list token) : cres + list (list token * val + werror) :=
  match ps with
  | [] => inr []
  | p :: ps' =>
      let continue x := match run_all ps' i with inl stop => inl stop | inr l => inr (x :: l) end in
      match p i with
      | COut => inl COut
      | CFail e => inl (CFail e)
      | COk r v => continue (inl (r, v))
      | CErr e => continue (inr e)
      end
  end.

(** [filter_map(Result::ok)], [map(unwrap_err)] *)
Definition oks (l : list (list token * val + werror)) : list (list token * val) :=
  flat_map (fun x => match x with inl y => [y] | inr _ => [] end) l.
Definition errs (l : list (list token * val + werror)) : list werror :=
  flat_map (fun x => match x with inr y => [y] | inl _ => [] end) l.

(** [Iterator::min_by_key]: the first of the least *)
Fixpoint min_rest (best : list token * val) (l : list (list token * val)) : list token * val :=
  match l with
  | [] => best
  | x :: l' => if Nat.ltb (List.length (fst x)) (List.length (fst best)) then min_rest x l' else min_rest best l'
  end.

(** derive_parse.rs:165-170 *)
Definition p_longest (ps : list parser) : parser := fun i =>
  match run_all ps i with
  | inl stop => stop
  | inr results =>
      match oks results with
      | x :: l => let '(r, v) := min_rest x l in COk r v
      | [] => match errs results with
              | e :: l => CErr (fold_left err_or l e)
              | [] => COut   (* no variants: rejected before *)
              end
      end
  end.

(** the [inner] of implement_parse, derive_parse.rs:117-191.  [longest] enums
    ignore [must_consume] (:151-172 against :179-183), and a container with
    [with] ignores its fields, [longest] and [must_consume]. *)
Definition implement_inner (d : decl) (a : container_attrs) : derived :=
  match c_with a with
  | Some s => Parser (container_with s)
  | None =>
      match d_data d with
      | DUnion => Rejected
      | DStruct fs => implement_struct d None fs (c_must_consume a)
      | DEnum vs =>
          match branches d vs with
          | None | Some [] => Rejected
          | Some (p :: ps) =>
              Parser (if c_longest a then p_longest (p :: ps)
                      else if c_must_consume a then p_must_consume (d_name d) (p_alt p ps)
                      else p_alt p ps)
          end
      end
  end.

(** the post-conditions, derive_parse.rs:193-226: the error is at the input *)
Definition check_post_conds (cs : list string) (p : parser) : parser := fun i =>
  match p i with
  | COk r v => if forallb (fun c => conds c v) cs then COk r v else CErr (mkerr i PostConditionFailed)
  | other => other
  end.

(** For a [longest] enum the generated [inner] begins with a [let] statement
    (:163), and with post-conditions it is spliced after [let (rest, value) =]
    (:219), which is not Rust. *)
Definition longest_enum (d : decl) (a : container_attrs) : bool :=
  match c_with a, d_data d with
  | None, DEnum _ => c_longest a
  | _, _ => false
  end.

(** implement_parse, derive_parse.rs:117-244 *)
Definition derive_parse (d : decl) : derived :=
  match container_of (d_attrs d) with
  | None => Rejected
  | Some a =>
      match implement_inner d a with
      | Parser p =>
          let after p := fold_left (fun p t => p_not_after p (env t)) (c_after_nots a) p in
          match c_post_conds a with
          | [] => Parser (after p)
          | cs => if longest_enum d a then Rejected else Parser (after (check_post_conds cs p))
          end
      | other => other
      end
  end.
End Derive.

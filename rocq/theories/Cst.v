(** Cst.v -- the parsing machinery of /repo/src/parse: the nom 7 combinators used
    by the derived parsers, parse errors, the values built, the [TreeNode] trait
    and the tree printer of /repo/examples/main.rs.

    Parsers are represented as syntax ([gexp]) over nonterminals, run by [grun]
    with fuel ([COut] = fuel exhausted, proved unreachable in CstMeta.v).
    No proofs in this file. *)
From Verif Require Import Base Span Selmaho Lex.

(** * Errors: src/parse/cst/error.rs *)

(** nom::error::ErrorKind, the ones that can occur *)
Inductive nom_kind := KMany0 | KMany1 | KManyTill | KNot | KEof.

(** cst/error.rs:12-37 ([ZoQuoteEof] is never constructed) *)
Inductive cerror :=
| ExpectedGot (expected : list Selmaho) (got : option token)
| PostConditionFailed
| Nom (k : nom_kind)
| Empty (rule : string).

(** cst/error.rs:50-57; the location is a slice of the input: the tokens that
    remain.  Its pointer is determined by its length, since all locations are
    suffixes of one slice. *)
Record werror := mkerr { location : list token; cerr : cerror }.

(** [#[derive(PartialEq)]] of [Token], lex/token.rs:14 *)
Definition token_eqb (a b : token) : bool :=
  Bool.eqb (experimental a) (experimental b) && sel_eqb (selmaho a) (selmaho b) &&
  (sp_start (tspan a) =? sp_start (tspan b)) && (sp_end (tspan a) =? sp_end (tspan b)).

Definition otoken_eqb (a b : option token) : bool :=
  match a, b with
  | None, None => true
  | Some a, Some b => token_eqb a b
  | _, _ => false
  end.

(** [WithLocation::or], cst/error.rs:75-94.  Pointers: the shorter of two
    suffixes starts further right; [max_by_key] keeps the larger pointer. *)
Definition err_or (self other : werror) : werror :=
  let ls := List.length (location self) in
  let lo := List.length (location other) in
  if Nat.ltb ls lo then self
  else if Nat.ltb lo ls then other
  else match cerr self, cerr other with
       | ExpectedGot expected got, ExpectedGot expected_o got_o =>
           if otoken_eqb got got_o then mkerr (location self) (ExpectedGot (expected ++ expected_o) got)
           else other
       | _, _ => other
       end.

(** * Values *)

(** A parsed value.  [VTok]: a token, or one of the leaf structs of
    cst/rules/selmaho.rs ([XInner], raw types, [Bu]), which keep flag and span
    of their token.  [VSpan]: [ZoiDelimiter] and [ZoiText], which keep only the
    span.  [VNode]: a struct or enum variant deriving [TreeNode].  [VPass]: the
    [TreeNodeChild]s that are not nodes themselves: tuples, slices, options
    and structs marked [passthrough_child]. *)
Inductive val :=
| VTok (t : token)
| VSpan (name : string) (sp : span)
| VNode (name : string) (fields : list val)
| VPass (fields : list val).

Definition fields_of (v : val) : list val := match v with VPass l => l | _ => [v] end.

(** * Parsers *)

(** Post-conditions (macros/src/derive_parse.rs:186-218). [PSomeField]: some
    field, all of which are options or slices, is not empty (Time, Space);
    [PNotSel]: the token is none of these (BuInner). *)
Inductive postcond := PSomeField | PNotSel (l : list Selmaho).

Section Syntax.
Context {nt : Type}.

Inductive gexp : Type :=
| GTok (s : Selmaho)              (* selmaho_raw::<S>            cst/rules/selmaho.rs:17-29 *)
| GAny                            (* Token::parse                cst/parse_trait.rs:27-38 *)
| GSpan (name : string)           (* Span::parse in a leaf       cst/parse_trait.rs:40-44 *)
| GCall (n : nt)                  (* T::parse *)
| GNil                            (* tuple(())                   the end of a tuple *)
| GCons (e es : gexp)             (* tuple((e, es..)) *)
| GAlt (a b : gexp)               (* alt((a.., b)), left nested *)
| GOpt (e : gexp)                 (* opt(e) *)
| GLoop (k : nom_kind) (e : gexp) (* the loop of many0 and many1 *)
| GMany1 (e : gexp)               (* many1(e) *)
| GManyTill (f g : gexp)          (* many_till(f, g) *)
| GNotThen (p e : gexp)           (* tuple((not(p), e)), keeping the second *)
| GNotAfter (e p : gexp)          (* tuple((e, not(p))), keeping the first *)
| GCut (e : gexp)                 (* cut(e) *)
| GConsume (name : string) (e : gexp) (* must_consume            macros/src/derive_parse.rs:281-296 *)
| GPost (c : postcond) (e : gexp) (* postcond                    macros/src/derive_parse.rs:186-218 *)
| GNode (name : string) (e : gexp).   (* construct a node from the fields *)

(** many0(e) is its loop *)
Definition GMany0 (e : gexp) : gexp := GLoop KMany0 e.

Definition gtuple (l : list gexp) : gexp := fold_right GCons GNil l.
Definition galt (a : gexp) (l : list gexp) : gexp := fold_left GAlt l a.
End Syntax.
Arguments gexp : clear implicits.

(** [nom::IResult<&[Token], T, WithLocation>]; [CErr] is [nom::Err::Error],
    [CFail] is [nom::Err::Failure] ([Incomplete] does not occur). *)
Inductive cres :=
| COut                                  (* model fuel exhausted *)
| COk (rest : list token) (v : val)
| CErr (e : werror)
| CFail (e : werror).

Definition same_len (a b : list token) : bool := Nat.eqb (List.length a) (List.length b).

Definition vcons (v w : val) : val := VPass (v :: fields_of w).

(** nonempty option or slice *)
Definition nonempty (v : val) : bool := match v with VPass [] => false | _ => true end.

(** the closures of the postcond attributes: cst/rules/mod.rs:430, :470, :700-702 *)
Definition holds (c : postcond) (v : val) : bool :=
  match c with
  | PSomeField => match v with VNode _ fs => existsb nonempty fs | _ => false end
  | PNotSel l => match v with VNode _ [VTok t] => negb (existsb (sel_eqb (selmaho t)) l) | _ => false end
  end.

Section Run.
Context {nt : Type} (rule : nt -> gexp nt).

Fixpoint grun (fuel : nat) (e : gexp nt) (i : list token) : cres :=
  match fuel with
  | O => COut
  | S n =>
    match e with
    (* cst/rules/selmaho.rs:17-29, :66-92: on failure the location is what
       follows the offending token *)
    | GTok s =>
        match i with
        | [] => CErr (mkerr [] (ExpectedGot [s] None))
        | t :: r => if sel_eqb (selmaho t) s then COk r (VTok t) else CErr (mkerr r (ExpectedGot [s] (Some t)))
        end
    (* cst/parse_trait.rs:27-38 *)
    | GAny => match i with t :: r => COk r (VTok t) | [] => CErr (mkerr [] (Nom KEof)) end
    (* cst/parse_trait.rs:40-44 *)
    | GSpan name => match i with t :: r => COk r (VSpan name (tspan t)) | [] => CErr (mkerr [] (Nom KEof)) end
    | GCall x => grun n (rule x) i
    (* nom::sequence::tuple *)
    | GNil => COk i (VPass [])
    | GCons e es =>
        match grun n e i with
        | COk r v => match grun n es r with
                     | COk r' w => COk r' (vcons v w)
                     | other => other
                     end
        | other => other
        end
    (* nom::branch::alt: errors are combined by [or]; failures stop it *)
    | GAlt a b =>
        match grun n a i with
        | CErr ea => match grun n b i with
                     | CErr eb => CErr (err_or ea eb)
                     | other => other
                     end
        | other => other
        end
    (* nom::combinator::opt *)
    | GOpt e => match grun n e i with
                | COk r v => COk r (VPass [v])
                | CErr _ => COk i (VPass [])
                | other => other
                end
    (* nom::multi::many0 and the loop of many1, written as a recursion *)
    | GLoop k e =>
        match grun n e i with
        | COk r v =>
            if same_len r i then CErr (mkerr i (Nom k))
            else match grun n (GLoop k e) r with
                 | COk r' w => COk r' (vcons v w)
                 | other => other
                 end
        | CErr _ => COk i (VPass [])
        | other => other
        end
    (* nom::multi::many1: no progress check for the first item *)
    | GMany1 e =>
        match grun n e i with
        | COk r v => match grun n (GLoop KMany1 e) r with
                     | COk r' w => COk r' (vcons v w)
                     | other => other
                     end
        | other => other
        end
    (* nom::multi::many_till; the value is (items, end) *)
    | GManyTill f g =>
        match grun n g i with
        | COk r v => COk r (VPass [VPass []; v])
        | CErr _ =>
            match grun n f i with
            | COk r v =>
                if same_len r i then CErr (mkerr r (Nom KManyTill))
                else match grun n (GManyTill f g) r with
                     | COk r' w => COk r' (match w with VPass [VPass l; x] => VPass [VPass (v :: l); x] | _ => w end)
                     | other => other
                     end
            | other => other
            end
        | other => other
        end
    (* nom::combinator::not *)
    | GNotThen p e =>
        match grun n p i with
        | COk _ _ => CErr (mkerr i (Nom KNot))
        | CErr _ => grun n e i
        | other => other
        end
    | GNotAfter e p =>
        match grun n e i with
        | COk r v => match grun n p r with
                     | COk _ _ => CErr (mkerr r (Nom KNot))
                     | CErr _ => COk r v
                     | other => other
                     end
        | other => other
        end
    (* nom::combinator::cut *)
    | GCut e => match grun n e i with CErr x => CFail x | other => other end
    (* macros/src/derive_parse.rs:281-296 *)
    | GConsume name e =>
        match grun n e i with
        | COk r v => if same_len r i then CErr (mkerr i (Empty name)) else COk r v
        | other => other
        end
    (* macros/src/derive_parse.rs:186-218 *)
    | GPost c e =>
        match grun n e i with
        | COk r v => if holds c v then COk r v else CErr (mkerr i PostConditionFailed)
        | other => other
        end
    (* the [map] to the constructor, macros/src/derive_parse.rs:262-266 *)
    | GNode name e =>
        match grun n e i with
        | COk r v => COk r (VNode name (fields_of v))
        | other => other
        end
    end
  end.
End Run.

(** * The TreeNode trait: src/parse/tree_node.rs and its derive *)

Definition or_else {A} (a b : option A) : option A := match a with Some _ => a | None => b end.

(** [find_map] *)
Section FindMap.
Context {A B : Type} (f : A -> option B).
Fixpoint find_map (l : list A) : option B :=
  match l with [] => None | x :: l' => or_else (f x) (find_map l') end.
End FindMap.

(** [TreeNodeChild::experimental]: tree_node.rs:36-39, :138-140, :165-168,
    derive_tree_node.rs "experimental_impl"; leaves keep their token's flag
    except ZoiDelimiter and ZoiText, which say [false] (cst/rules/mod.rs:843, :867). *)
Fixpoint node_experimental (v : val) : bool :=
  match v with
  | VTok t => experimental t
  | VSpan _ _ => false
  | VNode _ l | VPass l => existsb node_experimental l
  end.

(** tree_node.rs:40-42, :142-144, :170-178, "start_location_impl" *)
Fixpoint start_location (v : val) : option N :=
  match v with
  | VTok t => Some (sp_start (tspan t))
  | VSpan _ sp => Some (sp_start sp)
  | VNode _ l | VPass l => find_map start_location l
  end.

(** tree_node.rs:44-46, :146-148, :180-184, "end_location_impl": the last one *)
Fixpoint end_location (v : val) : option N :=
  match v with
  | VTok t => Some (sp_end (tspan t))
  | VSpan _ sp => Some (sp_end sp)
  | VNode _ l | VPass l =>
      (fix last_map (l : list val) : option N :=
         match l with [] => None | x :: l' => or_else (last_map l') (end_location x) end) l
  end.

(** [TreeNodeChild::invoke_with_self]: the nodes [f] is called with *)
Fixpoint invoke_with_self (v : val) : list val :=
  match v with
  | VPass l => flat_map invoke_with_self l
  | _ => [v]
  end.

(** [TreeNode::for_each_child] *)
Definition children (v : val) : list val :=
  match v with
  | VNode _ l | VPass l => flat_map invoke_with_self l
  | _ => []
  end.

(** [TreeNode::name] *)
Definition node_name (v : val) : string :=
  match v with
  | VTok t => as_repr (selmaho t)
  | VSpan name _ => name
  | VNode name _ => name
  | VPass _ => EmptyString
  end.

(** * The printer: examples/main.rs:104-142 *)

(** one printed line: indentation, name, star, and span with the slice of the input *)
Record line := mkline { l_level : N; l_name : string; l_star : bool; l_text : option (span * str) }.

(** examples/main.rs:107-119: descend while there is a single child *)
Fixpoint collapse_node (fuel : nat) (v : val) : option val :=
  match fuel with
  | O => None
  | S n => match children v with
           | [c] => collapse_node n c
           | _ => Some v
           end
  end.

(** examples/main.rs:121-138: the line of a node; [.unwrap()]s and [Span::new] may panic *)
Definition node_line (input : str) (level : N) (v : val) : outcome line :=
  match start_location v with
  | None => Ret (mkline level (node_name v) (node_experimental v) None)
  | Some start =>
      let! end_ := unwrap (end_location v) in
      let! sp := span_new start end_ in
      let! text := unwrap (span_slice sp input) in
      Ret (mkline level (node_name v) (node_experimental v) (Some (sp, text)))
  end.

(** examples/main.rs:104-142: the line, then those of the children; [None] is
    model fuel exhausted *)
Fixpoint print_node (fuel : nat) (collapse : bool) (input : str) (level : N) (v0 : val) : option (outcome (list line)) :=
  match fuel with
  | O => None
  | S n =>
      match (if collapse then collapse_node (S n) v0 else Some v0) with
      | None => None
      | Some v =>
          match (fix kids (l : list val) : option (outcome (list line)) :=
                   match l with
                   | [] => Some (Ret [])
                   | c :: l' =>
                       match print_node n collapse input (level + 2) c, kids l' with
                       | Some a, Some b => Some (let! x := a in let! y := b in Ret (x ++ y))
                       | _, _ => None
                       end
                   end) (children v) with
          | Some ks => Some (let! h := node_line input level v in let! k := ks in Ret (h :: k))
          | None => None
          end
      end
  end.

(** SpecParts.v -- where constructs of the grammar are in the tree; specification only (C67). *)
From Verif Require Import Base Span Selmaho Lex Cst CstApi SpecCst SpecGen SpecGrammar.

(** [part_of v p u m q]: going down from the node [v] through children one reaches the node [u], which shows
    exactly the tokens [m]; the other nodes of [v] show the tokens [p] before and [q] after them. *)
Inductive part_of : val -> list token -> val -> list token -> list token -> Prop :=
| part_self u m : stands_for u m -> part_of u [] u m []
| part_child v a c b pa pb p u m q : children v = a ++ c :: b -> Forall2 stands_for a pa -> Forall2 stands_for b pb ->
    part_of c p u m q -> part_of v (List.concat pa ++ p) u m (q ++ List.concat pb).

(** The kind of node that each construct of the grammar becomes; [None]: no node of its own. *)
Definition kind (a : part) : option string :=
  match a with
  | Text => Some "Text" | Paragraph => Some "Paragraph" | Item => Some "ParagraphItem" | Statement => Some "Sentences3"
  | Sentence => Some "Sentence" | Bridi => Some "Subsentence"
  | Tail | CuTail | Tensed => Some "SentenceTail1" | Simple | KelessTail | NextTail | TensedSimple => Some "SentenceTail4"
  | Gihek => Some "Gihek" | Term | Open => Some "Arg" | Sumti | OpenSumti => Some "Sumti" | Ek => Some "JoikEk" | Operand | OpenOperand => Some "Sumti3"
  | Plain => Some "Sumti4" | Base => Some "SumtiComponent1" | Relative => Some "RelativeClauses" | Clause => Some "RelativeClause"
  | Quantifier => Some "Quantifier" | Number => Some "Number" | Selbri | TensedSelbri | BeSelbri => Some "Selbri" | Tanru => Some "Selbri2"
  | Joined | BeUnit => Some "Selbri3" | Jek => Some "JoikJek" | Bonded => Some "Selbri6" | Unit | Brivla => Some "TanruUnit1"
  | Core => Some "TanruUnit2"
  | MoreTerms | OpenConnected | MoreConnected | BoOperands | BoJoined | BeTanru | Paragraphs | Items | Joint | Attached | Bridi1 | MoreTails | Terms | OpenTerms | NuTerms | TaggedTerms | Tag
  | Connected | Alternatives | MoreRelative | MoreNames | Digits | Befores | MoreCo | MoreJoined | Conn | MoreBo | Links | Prefixes => None
  end%string.

(** A struct's node has the name of the struct; an enum's node is named "Enum::Variant". *)
Definition of_kind (u : val) (k : string) : Prop := node_name u = k \/ exists variant, node_name u = (k ++ "::" ++ variant)%string.

(** The stretch [m1] of a text, between [p1] and [q1], lies within the stretch [m2] between [p2] and [q2]. *)
Definition within (p1 m1 q1 p2 m2 q2 : list token) : Prop := exists x y, p1 = p2 ++ x /\ m2 = x ++ m1 ++ y /\ q1 = y ++ q2.
(** ... or ends before the other one begins. *)
Definition before (p1 m1 q1 p2 m2 q2 : list token) : Prop := exists x, p2 = p1 ++ m1 ++ x /\ q1 = x ++ m2 ++ q2.
Definition no_crossing (p1 m1 q1 p2 m2 q2 : list token) : Prop :=
  within p1 m1 q1 p2 m2 q2 \/ within p2 m2 q2 p1 m1 q1 \/ before p1 m1 q1 p2 m2 q2 \/ before p2 m2 q2 p1 m1 q1.

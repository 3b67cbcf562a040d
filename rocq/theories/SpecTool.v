(** SpecTool.v -- vocabulary of the statements about the command line tool.
    Specification only. *)
From Verif Require Import Base Span Selmaho Lex Cst CstApi CstMain Tool.
Local Open Scope list_scope.

(** Unicode's White_Space *)
Definition white : list char :=
  [9; 10; 11; 12; 13; 32; 133; 160; 5760; 8192; 8193; 8194; 8195; 8196; 8197; 8198; 8199; 8200; 8201; 8202;
   8232; 8233; 8239; 8287; 12288].
Definition all_white (l : list char) : Prop := Forall (fun c => In c white) l.

(** [m] is [t] without the white space around it. *)
Definition trimmed (t a m b : list char) : Prop :=
  t = a ++ m ++ b /\ all_white a /\ all_white b /\
  (forall c m', m = c :: m' -> ~ In c white) /\ (forall c m', m = m' ++ [c] -> ~ In c white).

(** A printed word and a printed token: the span, and the text that stands there. *)
Definition shows_word (s : str) (sp : span) (e : str * span) : Prop :=
  snd e = sp /\ span_slice sp s = Some (fst e).
Definition shows_token (s : str) (t : token) (e : string * bool * (str * span)) : Prop :=
  fst (fst e) = as_repr (selmaho t) /\ snd (fst e) = experimental t /\ shows_word s (tspan t) (snd e).

(** The report about the syntax, as an output. *)
Definition report_output (r : report) : output :=
  match r with
  | RLexError e => OLexError e
  | RTree lines => OTree lines
  | RUnlexed t c => OUnlexed t c
  | RParseError e => OParseError e
  end.

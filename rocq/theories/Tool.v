(** Tool.v -- the command line tool /repo/examples/main.rs: the texts it is given,
    what it prints for each, with all its options.  Output is kept as data: how
    Rust's [{:?}] writes strings, spans and errors is not modelled, nor are the
    prompt, [--verbose] and the number in the arena message.  No proofs in this file. *)
From Verif Require Import Base Span Selmaho Decompose Lex Cst CstRules CstApi CstMain.

(** [char::is_whitespace] of Rust's standard library (White_Space) *)
Definition is_whitespace (c : char) : bool :=
  ((9 <=? c) && (c <=? 13)) || (c =? 32) || (c =? 133) || (c =? 160) || (c =? 5760) ||
  ((8192 <=? c) && (c <=? 8202)) || (c =? 8232) || (c =? 8233) || (c =? 8239) || (c =? 8287) || (c =? 12288).

(** [str::trim] *)
Fixpoint drop_whitespace (l : list char) : list char :=
  match l with
  | c :: l' => if is_whitespace c then drop_whitespace l' else l
  | [] => []
  end.
Definition trim (s : str) : str :=
  let rest := drop_whitespace (txt s) in
  mkstr (ptr s + (blen (txt s) - blen rest)) (rev (drop_whitespace (rev rest))).

(** examples/main.rs:24-43 without [verbose] *)
Record args := mkargs { a_decompose : bool; a_lex : bool; a_cst : bool; a_collapse : bool }.

(** what is printed *)
Inductive output :=
| OUsage
| ODecomposed (words : list (str * span))                      (* main.rs:58-61 *)
| OLexError (e : error)                                        (* :67-70 *)
| OLexed (tokens : list (string * bool * (str * span)))        (* :73-78 *)
| OTree (lines : list line)                                    (* :83 *)
| OUnlexed (t : token) (content : str)                         (* :85-93 *)
| OParseError (e : werror)                                     (* :94-96 *)
| OArena.                                                      (* :99 *)

(** [Debug for WithInput<Span>], examples/main.rs:143-152 *)
Definition with_input (input : str) (sp : span) : outcome (str * span) :=
  let! w := unwrap (span_slice sp input) in Ret (w, sp).

(** [Debug for DebugWithIterator], examples/main.rs:168-179 *)
Fixpoint each {A B} (f : A -> outcome B) (l : list A) : outcome (list B) :=
  match l with
  | [] => Ret []
  | x :: l' => let! y := f x in let! ys := each f l' in Ret (y :: ys)
  end.

(** [Debug for WithInput<Token>], examples/main.rs:154-164 *)
Definition token_with_input (input : str) (t : token) : outcome (string * bool * (str * span)) :=
  let! w := with_input input (tspan t) in Ret (as_repr (selmaho t), experimental t, w).

(** the closure given to [repl], examples/main.rs:57-101 *)
Definition callback (bm : build) (a : args) (input : str) : outcome (list output) :=
  let! dec := (if a_decompose a
               then let! ws := decompose_all bm input in let! es := each (with_input input) ws in Ret [ODecomposed es]
               else Ret []) in
  let! items := lex_all bm input in
  match sequence_items items with
  | inr e => Ret (dec ++ [OLexError e])
  | inl toks =>
      let! lexed := (if a_lex a then let! es := each (token_with_input input) toks in Ret [OLexed es] else Ret []) in
      let! cst := (if a_cst a
                   then let! p := cst_parse toks in
                        let! r := (match p with
                                   | inl root => let! lines := print_tree (a_collapse a) input root in Ret (OTree lines)
                                   | inr e => match location e with
                                              | t :: _ => if sel_eqb (selmaho t) S_AnyText
                                                          then let! c := unwrap (span_slice (tspan t) input) in Ret (OUnlexed t c)
                                                          else Ret (OParseError e)
                                              | [] => Ret (OParseError e)
                                              end
                                   end) in
                        Ret [r; OArena]
                   else Ret []) in
      Ret (dec ++ lexed ++ cst)
  end.

(** the pieces [read_line] returns: lines with their newline, the last one maybe without *)
Fixpoint read_lines (l : list char) (line : list char) : list (list char) :=
  match l with
  | [] => match line with [] => [] | _ => [rev line] end
  | c :: l' => if c =? 10 then rev (c :: line) :: read_lines l' [] else read_lines l' (c :: line)
  end.

(** repl, examples/main.rs:181-199; [buf]: where the buffer lies (it may move
    between lines; here it does not) *)
Definition texts (tty : bool) (buf : N) (stdin : list char) : list str :=
  map (fun l => trim (mkstr buf l)) (if tty then read_lines stdin [] else [stdin]).

(** main, examples/main.rs:45-102 *)
Definition tool (bm : build) (a : args) (tty : bool) (buf : N) (stdin : list char) : outcome (list output) :=
  if a_decompose a || a_lex a || a_cst a
  then let! outs := each (callback bm a) (texts tty buf stdin) in Ret (List.concat outs)
  else Ret [OUsage].

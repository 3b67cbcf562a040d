(** Lex.v -- /repo/src/lex/mod.rs and /repo/src/lex/token.rs.
    No proofs in this file. *)
From Verif Require Import Base Span Selmaho Classify Decompose.

(** lex/token.rs:15-22 *)
Record token := mktok { experimental : bool; selmaho : Selmaho; tspan : span }.

(** lex/mod.rs:19-120 *)
Inductive error :=
| DelimitedQuoteMissingSeparator (initiator_span : span)
| DelimitedQuoteUnclosed (initiator_span starting_delimiter_span : span)
| PauseDelimitedQuoteEof (initiator_span : span).

(** [Result<Token>] *)
Inductive item := IOk (t : token) | IErr (e : error).

(** lex/mod.rs:128-133; [how_many : NonZeroU8] *)
Record quote_state := mkqs {
  how_many : N; initiator_span : span; is_first : bool; starting_delimiter_span : span }.

(** lex/mod.rs:136-148 *)
Definition qs_next (q : quote_state) (ending_delimiter_span : span) : option quote_state :=
  match how_many q - 1 with
  | 0 => None
  | n => Some (mkqs n (initiator_span q) false ending_delimiter_span)
  end.

(** lex/mod.rs:152-159 *)
Inductive lstate :=
| Normal
| DelimitedQuote (q : quote_state)
| TwoMoreTokensThen (a b : token) (then_ : option quote_state)
| OneMoreTokenThen (t : token) (then_ : option quote_state)
| PauseDelimitedQuote (initiator_span : span)
| Done.

(** lex/mod.rs:162-166 *)
Record lexer := mklex { words : decomposer; l_input : str; state : lstate }.

(** lex/mod.rs:433-439 *)
Definition lex (input : str) : lexer := mklex (decompose input) input Normal.

Section Profile.
Context (bm : build).

(** lex/mod.rs:170-206 *)
Definition next_normal (l : lexer) : outcome (option item * lexer) :=
  let! (w, d) := dec_next bm (words l) in
  match w with
  | None => Ret (None, mklex d (l_input l) (state l))
  | Some sp =>
      let! word := unwrap (span_slice sp (l_input l)) in
      let! (sel, ex) := classify word in
      let tok := IOk (mktok ex sel sp) in
      match sel with
      | S_Zoi | S_Muhoi | S_Sohehai =>
          let n := match sel with S_Sohehai => 2 | _ => 1 end in
          let! (w2, d2) := dec_next bm d in
          match w2 with
          | Some sp2 => Ret (Some tok, mklex d2 (l_input l) (DelimitedQuote (mkqs n sp true sp2)))
          | None => Ret (Some (IErr (DelimitedQuoteMissingSeparator sp)), mklex d2 (l_input l) Done)
          end
      | S_Mehoi | S_Zohoi | S_Dohoi =>
          Ret (Some tok, mklex d (l_input l) (PauseDelimitedQuote sp))
      | S_Faho | S_Fahoho => Ret (Some tok, mklex d (l_input l) Done)
      | _ => Ret (Some tok, mklex d (l_input l) (state l))
      end
  end.

(** lex/mod.rs:223-226: equality of two words with their commas removed *)
Definition drop_commas (t : list char) : list char := filter (fun c => negb (is_comma c)) t.
Definition same_delimiter (a b : list char) : bool := str_eqb (drop_commas a) (drop_commas b).

(** [then.map_or(State::Normal, State::DelimitedQuote)] (lex/mod.rs:257,303) *)
Definition resume (t : option quote_state) : lstate :=
  match t with None => Normal | Some q => DelimitedQuote q end.

(** The loop of lex/mod.rs:219-272.  [sq]/[eq]: [start_of_quote], [end_of_quote]. *)
Fixpoint quote_loop (fuel : nat) (q : quote_state) (d : decomposer) (inp : str)
    (sq eq : option N) : outcome (option item * lexer) :=
  match fuel with
  | O => Diverge
  | S n =>
      let! (w, d') := next_no_decomposition bm d in
      match w with
      | None =>
          Ret (Some (IErr (DelimitedQuoteUnclosed (initiator_span q) (starting_delimiter_span q))),
               mklex d' inp Done)
      | Some wsp =>
          let! possible := unwrap (span_slice wsp inp) in
          let! starting := unwrap (span_slice (starting_delimiter_span q) inp) in
          if same_delimiter (txt starting) (txt possible) then
            let start_token := mktok false S_ZoiDelimiter (starting_delimiter_span q) in
            let! text_token :=
              match sq, eq with
              | Some a, Some b => let! sp := span_new a b in Ret (Some (mktok false S_AnyText sp))
              | _, _ => Ret None
              end in
            let end_token := mktok false S_ZoiDelimiter wsp in
            let nq := qs_next q wsp in
            if is_first q then
              Ret (Some (IOk start_token),
                   mklex d' inp (match text_token with
                                 | None => OneMoreTokenThen end_token nq
                                 | Some xt => TwoMoreTokensThen xt end_token nq
                                 end))
            else match text_token with
                 | Some xt => Ret (Some (IOk xt), mklex d' inp (OneMoreTokenThen end_token nq))
                 | None => Ret (Some (IOk end_token), mklex d' inp (resume nq))
                 end
          else
            quote_loop n q d' inp
              (match sq with None => Some (sp_start wsp) | Some a => Some a end)
              (Some (sp_end wsp))
      end
  end.

(** lex/mod.rs:208-273 *)
Definition next_delimited_quote (l : lexer) (q : quote_state) : outcome (option item * lexer) :=
  quote_loop (S (S (S (List.length (inner (chunks (words l))))))) q (words l) (l_input l) None None.

(** lex/mod.rs:275-288 *)
Definition next_pause_delimited_quote (l : lexer) (isp : span) : outcome (option item * lexer) :=
  let! (w, d) := next_no_decomposition bm (words l) in
  match w with
  | None => Ret (Some (IErr (PauseDelimitedQuoteEof isp)), mklex d (l_input l) Done)
  | Some sp => Ret (Some (IOk (mktok false S_AnyText sp)), mklex d (l_input l) Normal)
  end.

(** lex/mod.rs:294-311 *)
Definition lex_next (l : lexer) : outcome (option item * lexer) :=
  match state l with
  | Normal => next_normal l
  | DelimitedQuote q => next_delimited_quote l q
  | TwoMoreTokensThen t e then_ =>
      Ret (Some (IOk t), mklex (words l) (l_input l) (OneMoreTokenThen e then_))
  | OneMoreTokenThen e then_ => Ret (Some (IOk e), mklex (words l) (l_input l) (resume then_))
  | PauseDelimitedQuote isp => next_pause_delimited_quote l isp
  | Done => Ret (None, l)
  end.

(** [lex(input).collect::<Vec<_>>()]: call [next] until [None]. *)
Fixpoint lex_collect (fuel : nat) (l : lexer) : outcome (list item) :=
  match fuel with
  | O => Diverge
  | S n =>
      let! (x, l') := lex_next l in
      match x with
      | None => Ret []
      | Some i => let! r := lex_collect n l' in Ret (i :: r)
      end
  end.

Definition lex_all (input : str) : outcome (list item) :=
  lex_collect (4 + 3 * List.length (txt input))%nat (lex input).

(** [collect::<Result<Vec<_>, _>>()] of the items: the tokens before the first
    error, or that error. *)
Fixpoint sequence_items (l : list item) : list token + error :=
  match l with
  | [] => inl []
  | IErr e :: _ => inr e
  | IOk t :: r => match sequence_items r with inl ts => inl (t :: ts) | inr e => inr e end
  end.
End Profile.

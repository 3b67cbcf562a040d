(** SpecLex.v -- what lexing a text should give, as a relation between texts and
    items; specification only.  It refers to the code only through the API:
    [decompose_all] (words of a text), [classify] (class of a word) and the
    types of tokens and errors.  [bm] is the build profile.

    All relations read a text from some position on: [o] is the byte offset of
    the remaining text [t] in the whole input. *)
From Verif Require Import Base Span Selmaho Classify Decompose Lex SpecText.

(** [t] is [g ++ w ++ r] and [w] is the first word of [t]. *)
Definition first_word (bm : build) (t g w r : list char) : Prop :=
  t = g ++ w ++ r /\
  exists more, decompose_all bm (mkstr 0 t) = Ret (mkspan (blen g) (blen g + blen w) :: more).

Definition no_word (bm : build) (t : list char) : Prop := decompose_all bm (mkstr 0 t) = Ret [].

(** The raw text after a word, up to the next separator: [r] is [k ++ c ++ z],
    [c] is read, [z] is left.  Either [c] is the rest of the current chunk
    (when that is more than commas), or the next chunk, possibly empty. *)
Definition read_chunk (r k c z : list char) : Prop :=
  r = k ++ c ++ z /\ no_sep c /\
  (z = [] \/ exists s z', z = s :: z' /\ is_sep s) /\
  ((k = [] /\ ~ all_commas c) \/ exists cs s, k = cs ++ [s] /\ all_commas cs /\ is_sep s).

(** [quote D o r qs e z]: reading chunks from [r] until one has the letters of
    the delimiter word [D]: [qs] are the spans of the chunks before it, [e] its
    span, [z] the text after it. *)
Inductive quote (D : list char) : N -> list char -> list span -> span -> list char -> Prop :=
| quote_end o r k c z : read_chunk r k c z -> letters c = letters D ->
    quote D o r [] (mkspan (o + blen k) (o + blen k + blen c)) z
| quote_more o r k c z qs e z' : read_chunk r k c z -> letters c <> letters D ->
    quote D (o + blen k + blen c) z qs e z' ->
    quote D o r (mkspan (o + blen k) (o + blen k + blen c) :: qs) e z'.

(** No later chunk has the letters of [D]. *)
Inductive unclosed (D : list char) : list char -> Prop :=
| unclosed_end r : all_commas r -> unclosed D r
| unclosed_more r k c z : read_chunk r k c z -> letters c <> letters D -> unclosed D z -> unclosed D r.

(** The text token of a quote: from the first quoted chunk to the last. *)
Definition quoted_text (qs : list span) : list item :=
  match qs with
  | [] => []
  | q :: _ => [IOk (mktok false S_AnyText (mkspan (sp_start q) (sp_end (last qs q))))]
  end.

Definition delimiter (sp : span) : item := IOk (mktok false S_ZoiDelimiter sp).

(** [n] more texts, each ended by a delimiter; the result says where lexing
    goes on, if it does. *)
Inductive parts (isp : span) (D : list char) : nat -> span -> N -> list char -> list item -> option (N * list char) -> Prop :=
| parts_done dsp o r : parts isp D 0 dsp o r [] (Some (o, r))
| parts_more n dsp o r qs e z items k : quote D o r qs e z -> parts isp D n e (sp_end e) z items k ->
    parts isp D (S n) dsp o r (quoted_text qs ++ delimiter e :: items) k
| parts_unclosed n dsp o r : unclosed D r ->
    parts isp D (S n) dsp o r [IErr (DelimitedQuoteUnclosed isp dsp)] None.

(** Number of quoted texts announced by a word of this class. *)
Definition quoted_texts (s : Selmaho) : option nat :=
  match s with S_Zoi | S_Muhoi => Some 1%nat | S_Sohehai => Some 2%nat | _ => None end.

Definition pause_quoting (s : Selmaho) : Prop := In s [S_Mehoi; S_Zohoi; S_Dohoi].
Definition ends_text (s : Selmaho) : Prop := In s [S_Faho; S_Fahoho].

(** [word_token bm o t o' r tok]: [tok] is the token of the first word of [t];
    the text [r] at [o'] follows the word. *)
Definition word_token (bm : build) (o : N) (t : list char) (o' : N) (r : list char) (tok : token) : Prop :=
  exists g w sel ex, first_word bm t g w r /\ classify (mkstr 0 w) = Ret (sel, ex) /\
    tok = mktok ex sel (mkspan (o + blen g) (o + blen g + blen w)) /\ o' = o + blen g + blen w.

Inductive lexes (bm : build) : N -> list char -> list item -> Prop :=
| lx_end o t : no_word bm t -> lexes bm o t []
| lx_plain o t o' r tok items : word_token bm o t o' r tok ->
    quoted_texts (selmaho tok) = None -> ~ pause_quoting (selmaho tok) -> ~ ends_text (selmaho tok) ->
    lexes bm o' r items -> lexes bm o t (IOk tok :: items)
| lx_faho o t o' r tok : word_token bm o t o' r tok -> ends_text (selmaho tok) ->
    lexes bm o t [IOk tok]
| lx_pause o t o' r tok k c z items : word_token bm o t o' r tok -> pause_quoting (selmaho tok) ->
    read_chunk r k c z -> lexes bm (o' + blen k + blen c) z items ->
    lexes bm o t (IOk tok :: IOk (mktok false S_AnyText (mkspan (o' + blen k) (o' + blen k + blen c))) :: items)
| lx_pause_eof o t o' r tok : word_token bm o t o' r tok -> pause_quoting (selmaho tok) -> all_commas r ->
    lexes bm o t [IOk tok; IErr (PauseDelimitedQuoteEof (tspan tok))]
| lx_missing o t o' r tok n : word_token bm o t o' r tok -> quoted_texts (selmaho tok) = Some n -> no_word bm r ->
    lexes bm o t [IErr (DelimitedQuoteMissingSeparator (tspan tok))]
| lx_unclosed o t o' r tok n g D r' dsp : word_token bm o t o' r tok -> quoted_texts (selmaho tok) = Some n ->
    first_word bm r g D r' -> dsp = mkspan (o' + blen g) (o' + blen g + blen D) -> unclosed D r' ->
    lexes bm o t [IOk tok; IErr (DelimitedQuoteUnclosed (tspan tok) dsp)]
| lx_quote o t o' r tok n g D r' dsp qs e z part o2 r2 items :
    word_token bm o t o' r tok -> quoted_texts (selmaho tok) = Some (S n) ->
    first_word bm r g D r' -> dsp = mkspan (o' + blen g) (o' + blen g + blen D) ->
    quote D (sp_end dsp) r' qs e z -> parts (tspan tok) D n e (sp_end e) z part (Some (o2, r2)) ->
    lexes bm o2 r2 items ->
    lexes bm o t (IOk tok :: delimiter dsp :: quoted_text qs ++ delimiter e :: part ++ items)
| lx_quote_broken o t o' r tok n g D r' dsp qs e z part :
    word_token bm o t o' r tok -> quoted_texts (selmaho tok) = Some (S n) ->
    first_word bm r g D r' -> dsp = mkspan (o' + blen g) (o' + blen g + blen D) ->
    quote D (sp_end dsp) r' qs e z -> parts (tspan tok) D n e (sp_end e) z part None ->
    lexes bm o t (IOk tok :: delimiter dsp :: quoted_text qs ++ delimiter e :: part).

(** * Vocabulary of the statements of Props_Lex.v *)

(** The results of [n] calls of [next], and the final state. *)
Fixpoint lrun (bm : build) (n : nat) (l : lexer) : outcome (list (option item) * lexer) :=
  match n with
  | O => Ret ([], l)
  | S n' => let! (x, l1) := lex_next bm l in
            let! (xs, l2) := lrun bm n' l1 in Ret (x :: xs, l2)
  end.

(** Repeated calls of [next] give the items, and then [None] forever. *)
Definition runs (bm : build) (l : lexer) (items : list item) : Prop :=
  forall k, exists l', lrun bm (List.length items + k) l = Ret (map Some items ++ repeat None k, l').

(** The spans mentioned by an item. *)
Definition item_spans (i : item) : list span :=
  match i with
  | IOk t => [tspan t]
  | IErr (DelimitedQuoteMissingSeparator a) => [a]
  | IErr (DelimitedQuoteUnclosed a b) => [a; b]
  | IErr (PauseDelimitedQuoteEof a) => [a]
  end.

Definition tokens (l : list item) : list token :=
  flat_map (fun i => match i with IOk t => [t] | IErr _ => [] end) l.

(** The tokens that are not words. *)
Definition technical (i : item) : Prop :=
  match i with IOk t => In (selmaho t) [S_AnyText; S_ZoiDelimiter] /\ experimental t = false | IErr _ => True end.

(** What an error that comes after the items [pre] of the text [T] says. *)
Definition error_ok (T : list char) (bm : build) (pre : list item) (e : error) : Prop :=
  match e with
  | DelimitedQuoteMissingSeparator isp =>
      exists x w r sel ex, T = x ++ w ++ r /\ isp = mkspan (blen x) (blen x + blen w) /\
        classify (mkstr 0 w) = Ret (sel, ex) /\ quoted_texts sel <> None /\ no_word bm r
  | DelimitedQuoteUnclosed isp dsp =>
      exists pre' tok mid x D r, pre = pre' ++ IOk tok :: mid /\ tspan tok = isp /\ quoted_texts (selmaho tok) <> None /\
        Forall technical mid /\ T = x ++ D ++ r /\ dsp = mkspan (blen x) (blen x + blen D) /\ sp_end isp <= blen x /\
        unclosed D r
  | PauseDelimitedQuoteEof isp =>
      exists pre' tok x r, pre = pre' ++ [IOk tok] /\ tspan tok = isp /\ pause_quoting (selmaho tok) /\
        T = x ++ r /\ blen x = sp_end isp /\ all_commas r
  end.

(** Classes of words that only stand for themselves. *)
Definition is_plain (sel : Selmaho) : Prop := quoted_texts sel = None /\ ~ pause_quoting sel /\ ~ ends_text sel.

(** [i] is the token of the word of [T] at [sp]. *)
Definition token_of (T : list char) (sp : span) (i : item) : Prop :=
  exists w sel ex, span_slice sp (mkstr 0 T) = Some w /\ classify w = Ret (sel, ex) /\ i = IOk (mktok ex sel sp).

(** Items moved right by [n] bytes. *)
Definition shift_token (n : N) (t : token) : token := mktok (experimental t) (selmaho t) (shift_span n (tspan t)).
Definition shift_error (n : N) (e : error) : error :=
  match e with
  | DelimitedQuoteMissingSeparator a => DelimitedQuoteMissingSeparator (shift_span n a)
  | DelimitedQuoteUnclosed a b => DelimitedQuoteUnclosed (shift_span n a) (shift_span n b)
  | PauseDelimitedQuoteEof a => PauseDelimitedQuoteEof (shift_span n a)
  end.
Definition shift_item (n : N) (i : item) : item :=
  match i with IOk t => IOk (shift_token n t) | IErr e => IErr (shift_error n e) end.

(** Peg.v -- the parser combinators of /repo/src/rules.rs:41-200.

    A rule of rules.rs is a [for<'a> Fn(&'a str) -> Option<(&'a str, &'a str)>]
    (rules.rs:41-45,127) returning the matched slice and the rest.  The
    combinators are represented as syntax ([pexp]) and run by [run], which
    follows the Rust code combinator by combinator, including the pointer
    arithmetic and the panicking slicing.  [run] takes fuel; [Out] (fuel
    exhausted) is a separate outcome, proved unreachable in PegTotal.v.
    No proofs in this file. *)
From Verif Require Import Base.

Section Syntax.
Context {nt : Type}.

Inductive pexp : Type :=
| One (chs : list char)                 (* one_of(chs)          rules.rs:158-169 *)
| Eof                                   (* eof                  rules.rs:149-156 *)
| Null                                  (* null                 rules.rs:55-57 *)
| Not (e : pexp)                        (* not(parser)          rules.rs:59-67 *)
| Peek (e : pexp)                       (* peek(parser)         rules.rs:77-79 *)
| Or (es : list pexp)                   (* or![a, b, ..]        rules.rs:81-87 *)
| Longest (es : list pexp)              (* or![longest=> ..]    rules.rs:88-93 *)
| Seq (e : pexp) (es : list pexp)       (* seq![first, ..]      rules.rs:100-117 *)
| Repeat (min : nat) (e : pexp)         (* repeat(min, parser)  rules.rs:176-200 *)
| AndPeek (e p : pexp)                  (* e(input).and_peek(p) rules.rs:136-138 *)
| AndNot (e p : pexp)                   (* e(input).and_not(p)  rules.rs:140-142 *)
| NotThen (p e : pexp)                  (* not!(p(input)); e(input)  rules.rs:47-53 *)
| Call (x : nt).                        (* a call of a named rule *)

(** opt(parser) = or![parser, null]      rules.rs:96-98 *)
Definition Opt (e : pexp) : pexp := Or [e; Null].
End Syntax.
Arguments pexp : clear implicits.

(** Outcome of a rule on an input. *)
Inductive pres : Type :=
| Out                                   (* model fuel exhausted *)
| Boom                                  (* the Rust code would panic *)
| Fail                                  (* None *)
| Match (matched rest : str).           (* Some((matched, rest)) *)

(** rules.rs:161: skip chars until one that is not a comma; returns it and the
    remaining [chars.as_str()] *)
Fixpoint find_non_comma (t : list char) (p : N) : option (char * str) :=
  match t with
  | [] => None
  | c :: u => if is_comma c then find_non_comma u (p + clen c)
              else Some (c, mkstr (p + clen c) u)
  end.

(** rules.rs:55-57: [Some(input.split_at(0))] *)
Definition run_null (s : str) : pres := Match (mkstr (ptr s) []) s.

(** rules.rs:158-169 *)
Definition run_one (chs : list char) (s : str) : pres :=
  match find_non_comma (txt s) (ptr s) with
  | None => Fail                                                 (* the [?] on line 161 *)
  | Some (first, remaining) =>
      if mem_char first chs then
        match s_split_at s (ptr remaining - ptr s) with          (* lines 162,164 *)
        | Some (m, r) => Match m r
        | None => Boom
        end
      else Fail
  end.

(** [input[first - input_ptr .. last - input_ptr]] of rules.rs:113-114 and
    :193-198; usize subtraction below zero panics (or slices out of range). *)
Definition slice_ptrs (s : str) (first last : N) (rest : str) : pres :=
  if (ptr s <=? first) && (ptr s <=? last) then
    match s_get s (first - ptr s) (last - ptr s) with
    | Some m => Match m rest
    | None => Boom
    end
  else Boom.

Section Run.
Context {nt : Type} (rule : nt -> pexp nt).

(** The tail of seq! (rules.rs:107-112): thread [rest] through the remaining
    parsers, remembering the end pointer of the last match. *)
Fixpoint seq_tail (f : pexp nt -> str -> pres) (es : list (pexp nt)) (s : str)
    (first last : N) (rest : str) : pres :=
  match es with
  | [] => slice_ptrs s first last rest
  | e :: es' =>
      match f e rest with
      | Match m r => seq_tail f es' s first (ptr m + s_len m) r
      | other => other
      end
  end.

(** rules.rs:84-85 *)
Fixpoint or_list (f : pexp nt -> str -> pres) (es : list (pexp nt)) (s : str) : pres :=
  match es with
  | [] => Fail
  | e :: es' => match f e s with Fail => or_list f es' s | other => other end
  end.

(** rules.rs:90-91: all alternatives are run; [min_by_key(rest.len())] keeps
    the first minimum. *)
Fixpoint longest_list (f : pexp nt -> str -> pres) (es : list (pexp nt)) (s : str)
    (best : option (str * str)) : pres :=
  match es with
  | [] => match best with Some (m, r) => Match m r | None => Fail end
  | e :: es' =>
      match f e s with
      | Match m r =>
          match best with
          | None => longest_list f es' s (Some (m, r))
          | Some (m0, r0) =>
              if s_len r <? s_len r0 then longest_list f es' s (Some (m, r))
              else longest_list f es' s best
          end
      | Fail => longest_list f es' s best
      | other => other
      end
  end.

(** The loop of repeat (rules.rs:182-187) and its epilogue (:189-198).
    [k] bounds the number of iterations of the model's loop. *)
Fixpoint rep_loop (f : str -> pres) (k : nat) (min : nat) (s : str)
    (rest : str) (first : option N) (last : N) (num : nat) : pres :=
  match k with
  | O => Out
  | S k' =>
      match f rest with
      | Match m r =>
          rep_loop f k' min s r
            (match first with None => Some (ptr m) | Some p => Some p end)
            (ptr m + s_len m) (S num)
      | Fail =>
          if Nat.ltb num min then Fail
          else slice_ptrs s (match first with None => ptr s | Some p => p end) last rest
      | other => other
      end
  end.

Fixpoint run (fuel : nat) (e : pexp nt) (s : str) : pres :=
  match fuel with
  | O => Out
  | S n =>
      match e with
      | One chs => run_one chs s
      | Eof => if s_is_empty s then run_null s else Fail
      | Null => run_null s
      | Not e => match run n e s with
                 | Match _ _ => Fail
                 | Fail => run_null s
                 | other => other
                 end
      | Peek e => match run n e s with
                  | Match _ _ => run_null s
                  | other => other
                  end
      | Or es => or_list (run n) es s
      | Longest es => longest_list (run n) es s None
      | Seq e es => match run n e s with
                    | Match m r => seq_tail (run n) es s (ptr m) (ptr m + s_len m) r
                    | other => other
                    end
      | Repeat min e =>
          rep_loop (run n e) (S (List.length (txt s))) min s s None (ptr s) 0%nat
      | AndPeek e p => match run n e s with
                       | Match m r => match run n p r with
                                      | Match _ _ => Match m r
                                      | other => other
                                      end
                       | other => other
                       end
      | AndNot e p => match run n e s with
                      | Match m r => match run n p r with
                                     | Match _ _ => Fail
                                     | Fail => Match m r
                                     | other => other
                                     end
                      | other => other
                      end
      | NotThen p e => match run n p s with
                       | Match _ _ => Fail
                       | Fail => run n e s
                       | other => other
                       end
      | Call x => run n (rule x) s
      end
  end.
End Run.

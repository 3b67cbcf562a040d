(** Cost.v -- the number of rule invocations, for property C46.

    [crun] is [run] of Peg.v (the combinators of /repo/src/rules.rs:41-200) with
    a counter that every call of a named rule (rules.rs:209-898) increments;
    CostThms.v proves that its first component is [run].  The other functions
    add up the counts of the calls that decompose/mod.rs makes for one chunk.
    No proofs in this file. *)
From Verif Require Import Base Peg Rules RulesApi Span Decompose.

Definition counted := (pres * N)%type.
Definition plus_count (k : N) (c : counted) : counted := (fst c, k + snd c).

Section CRun.
Context {nt : Type} (rule : nt -> pexp nt).

(** rules.rs:107-112 *)
Fixpoint cseq_tail (f : pexp nt -> str -> counted) (es : list (pexp nt)) (s : str)
    (first last : N) (rest : str) : counted :=
  match es with
  | [] => (slice_ptrs s first last rest, 0)
  | e :: es' =>
      let c := f e rest in
      match fst c with
      | Match m r => plus_count (snd c) (cseq_tail f es' s first (ptr m + s_len m) r)
      | other => (other, snd c)
      end
  end.

(** rules.rs:84-85 *)
Fixpoint cor_list (f : pexp nt -> str -> counted) (es : list (pexp nt)) (s : str) : counted :=
  match es with
  | [] => (Fail, 0)
  | e :: es' => let c := f e s in
                match fst c with Fail => plus_count (snd c) (cor_list f es' s) | other => (other, snd c) end
  end.

(** rules.rs:90-91 *)
Fixpoint clongest_list (f : pexp nt -> str -> counted) (es : list (pexp nt)) (s : str)
    (best : option (str * str)) : counted :=
  match es with
  | [] => (match best with Some (m, r) => Match m r | None => Fail end, 0)
  | e :: es' =>
      let c := f e s in
      match fst c with
      | Match m r =>
          plus_count (snd c)
          match best with
          | None => clongest_list f es' s (Some (m, r))
          | Some (m0, r0) =>
              if s_len r <? s_len r0 then clongest_list f es' s (Some (m, r))
              else clongest_list f es' s best
          end
      | Fail => plus_count (snd c) (clongest_list f es' s best)
      | other => (other, snd c)
      end
  end.

(** rules.rs:176-200 *)
Fixpoint crep_loop (f : str -> counted) (k : nat) (min : nat) (s : str)
    (rest : str) (first : option N) (last : N) (num : nat) : counted :=
  match k with
  | O => (Out, 0)
  | S k' =>
      let c := f rest in
      match fst c with
      | Match m r =>
          plus_count (snd c)
          (crep_loop f k' min s r
            (match first with None => Some (ptr m) | Some p => Some p end)
            (ptr m + s_len m) (S num))
      | Fail =>
          (if Nat.ltb num min then Fail
           else slice_ptrs s (match first with None => ptr s | Some p => p end) last rest, snd c)
      | other => (other, snd c)
      end
  end.

Fixpoint crun (fuel : nat) (e : pexp nt) (s : str) : counted :=
  match fuel with
  | O => (Out, 0)
  | S n =>
      match e with
      | One chs => (run_one chs s, 0)
      | Eof => (if s_is_empty s then run_null s else Fail, 0)
      | Null => (run_null s, 0)
      | Not e => let c := crun n e s in
                 (match fst c with
                  | Match _ _ => Fail
                  | Fail => run_null s
                  | other => other
                  end, snd c)
      | Peek e => let c := crun n e s in
                  (match fst c with
                   | Match _ _ => run_null s
                   | other => other
                   end, snd c)
      | Or es => cor_list (crun n) es s
      | Longest es => clongest_list (crun n) es s None
      | Seq e es => let c := crun n e s in
                    match fst c with
                    | Match m r => plus_count (snd c) (cseq_tail (crun n) es s (ptr m) (ptr m + s_len m) r)
                    | other => (other, snd c)
                    end
      | Repeat min e =>
          crep_loop (crun n e) (S (List.length (txt s))) min s s None (ptr s) 0%nat
      | AndPeek e p => let c := crun n e s in
                       match fst c with
                       | Match m r => let d := crun n p r in
                                      (match fst d with
                                       | Match _ _ => Match m r
                                       | other => other
                                       end, snd c + snd d)
                       | other => (other, snd c)
                       end
      | AndNot e p => let c := crun n e s in
                      match fst c with
                      | Match m r => let d := crun n p r in
                                     (match fst d with
                                      | Match _ _ => Fail
                                      | Fail => Match m r
                                      | other => other
                                      end, snd c + snd d)
                      | other => (other, snd c)
                      end
      | NotThen p e => let c := crun n p s in
                       match fst c with
                       | Match _ _ => (Fail, snd c)
                       | Fail => plus_count (snd c) (crun n e s)
                       | other => (other, snd c)
                       end
      | Call x => plus_count 1 (crun n (rule x) s)
      end
  end.
End CRun.

(** The rule invocations of a call [rules::x(s)]. *)
Definition calls_of (x : nt) (s : str) : N := snd (crun rule (rules_fuel (txt s)) (Call x) s).

(** decompose/mod.rs:56-62 *)
Definition post_word_calls (s : str) : N :=
  (fix go (l : list nt) : N :=
     match l with
     | [] => 0
     | x :: l => calls_of x s + match call_rule x s with Ret None => go l | _ => 0 end
     end) [N_gismu; N_fuhivla; N_lujvo_minimal; N_cmavo_minimal].
Definition post_word_all_calls (s : str) : N :=
  calls_of N_nucleus s + match call_rule N_nucleus s with Ret None => post_word_calls s | _ => 0 end.

(** decompose/mod.rs:78 *)
Definition fall_off_calls (s : str) : N :=
  calls_of N_cmavo_minimal s +
  match call_rule N_cmavo_minimal s with Ret None => calls_of N_explicitly_stressed_brivla_minimal s | _ => 0 end.

(** decompose/mod.rs:77-84: the calls of the loop, and what remains after it *)
Fixpoint loop_calls (fuel : nat) (rest : str) : N * str :=
  match fuel with
  | O => (0, rest)
  | S n => match fall_off rest with
           | Ret (Some (_, new_rest)) => let (k, r) := loop_calls n new_rest in (fall_off_calls rest + k, r)
           | _ => (fall_off_calls rest, rest)
           end
  end.

(** decompose/mod.rs:64-101: the rule invocations made for one chunk *)
Definition chunk_calls (s : str) : N :=
  if simple_cmevla_check (txt s) then 0
  else let (k, rest) := loop_calls (S (List.length (txt s))) s in
       k + match fall_off s with Ret (Some _) => post_word_all_calls rest | _ => 0 end.

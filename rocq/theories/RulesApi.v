(** RulesApi.v -- calling a rule of /repo/src/rules.rs from Rust code: the
    [Option<(&str, &str)>] it returns, and [succeeded_and_consumed_all].
    No proofs in this file. *)
From Verif Require Import Base Peg Rules.

(** Recursion bound given to [run]; RulesTotal.v proves it is never reached. *)
Definition RULES_D : nat := 160.
Definition rules_fuel (t : list char) : nat := (RULES_D * S (List.length t))%nat.

(** A call [rules::x(s)]. *)
Definition call_rule (x : nt) (s : str) : outcome (option (str * str)) :=
  match run rule (rules_fuel (txt s)) (Call x) s with
  | Out => Diverge
  | Boom => Panic
  | Fail => Ret None
  | Match m r => Ret (Some (m, r))
  end.

(** [.is_some()] *)
Definition is_some {A} (o : option A) : bool := match o with Some _ => true | None => false end.

(** rules.rs:144-146 *)
Definition succeeded_and_consumed_all (o : option (str * str)) : bool :=
  match o with Some (_, rest) => s_is_empty rest | None => false end.

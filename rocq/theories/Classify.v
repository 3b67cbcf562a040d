(** Classify.v -- /repo/src/lex/selmaho/classify.rs.  No proofs in this file. *)
From Verif Require Import Base Utf8 Peg Rules RulesApi Selmaho ClassifyTable.

(** classify.rs:9-13: drop the commas, map 'h' to the apostrophe (on bytes) *)
Definition cmavo_bytes (word : list char) : list N :=
  map (fun b => if b =? 104 then 39 else b) (filter (fun b => negb (b =? 44)) (bytes_of word)).

(** [*place = byte] at an index of the buffer; [None] when out of range
    ([buf.get_mut(index)]). *)
Fixpoint set_nth (buf : list N) (i : nat) (b : N) : option (list N) :=
  match buf, i with
  | [], _ => None
  | _ :: l, O => Some (b :: l)
  | x :: l, S i' => match set_nth l i' b with Some l' => Some (x :: l') | None => None end
  end.

(** The for loop, classify.rs:7-21: the buffer and [reached_index] at its end. *)
Fixpoint fill (bs : list N) (index : nat) (buf : list N) (reached : nat) : list N * nat :=
  match bs with
  | [] => (buf, reached)
  | b :: r =>
      match set_nth buf index b with
      | Some buf' => fill r (S index) buf' index
      | None => (buf, index)                                    (* break *)
      end
  end.

(** classify.rs:4-28; [buf] is the zeroed 16-byte buffer of line 58.  The
    [unwrap] of [from_utf8] on line 26 is a possible panic. *)
Definition transform_for_direct_cmavo_check (word : list char) (buf : list N)
    : outcome (option (list char)) :=
  let (buf', reached) := fill (cmavo_bytes word) 0%nat buf 0%nat in
  if Nat.leb (List.length buf) reached then Ret None
  else let! s := unwrap (from_utf8 (firstn (S reached) buf')) in Ret (Some s).

Fixpoint str_eqb (a b : list char) : bool :=
  match a, b with
  | [], [] => true
  | x :: a', y :: b' => (x =? y) && str_eqb a' b'
  | _, _ => false
  end.

(** classify.rs:338: [!word.is_empty() && word.chars().all(|ch| ch == 'y')] *)
Definition all_y (w : list char) : bool :=
  match w with [] => false | _ => forallb (fun c => c =? 121) w end.

Definition pat_matches (p : pat) (w : list char) : bool :=
  match p with
  | Lits l => existsb (fun s => str_eqb (lit s) w) l
  | AllY => all_y w
  end.

(** The match on lines 71-476: the first arm whose pattern matches. *)
Fixpoint table_lookup (arms : list (pat * Selmaho * bool)) (w : list char) : option (Selmaho * bool) :=
  match arms with
  | [] => None
  | (p, s, e) :: r => if pat_matches p w then Some (s, e) else table_lookup r w
  end.

(** classify.rs:34-46 *)
Definition classify_generally (w : str) : outcome Selmaho :=
  let! r := call_rule N_cmevla w in
  if succeeded_and_consumed_all r then Ret S_Cmevla else
  let! r := call_rule N_cmavo_minimal w in
  if succeeded_and_consumed_all r then Ret S_UnknownCmavo else
  let! r := call_rule N_gismu w in
  if succeeded_and_consumed_all r then Ret S_Gismu else
  let! r := call_rule N_fuhivla w in
  if succeeded_and_consumed_all r then Ret S_Fuhivla else
  let! r := call_rule N_lujvo_minimal w in
  if succeeded_and_consumed_all r then Ret S_Lujvo else
  Ret S_AnyText.

(** classify.rs:57-486 *)
Definition classify (word : str) : outcome (Selmaho * bool) :=
  let! direct := transform_for_direct_cmavo_check (txt word) (repeat 0 16) in
  let! (selmaho, is_experimental) :=
    match direct with
    | Some w => match table_lookup table_arms w with
                | Some se => Ret se
                | None => let! s := classify_generally word in Ret (s, false)
                end
    | None => let! s := classify_generally word in Ret (s, false)
    end in
  Ret (selmaho, is_fundamentally_experimental selmaho || is_experimental).

(** Utf8.v -- the bytes of a [str] ([str::bytes]) and [std::str::from_utf8].
    Standard-library behaviour (RFC 3629, Unicode Table 3-7), needed because
    /repo/src/lex/selmaho/classify.rs:4-28 works on bytes.
    No proofs in this file. *)
From Verif Require Import Base.

(** Unicode scalar values: what a Rust [char] may be. *)
Definition is_scalar (c : char) : bool :=
  (c <? 55296) || ((57344 <=? c) && (c <? 1114112)).

(** UTF-8 encoding of one char. *)
Definition enc (c : char) : list N :=
  if c <? 128 then [c]
  else if c <? 2048 then [192 + c / 64; 128 + c mod 64]
  else if c <? 65536 then [224 + c / 4096; 128 + (c / 64) mod 64; 128 + c mod 64]
  else [240 + c / 262144; 128 + (c / 4096) mod 64; 128 + (c / 64) mod 64; 128 + c mod 64].

(** [str::bytes] *)
Definition bytes_of (t : list char) : list N := flat_map enc t.

Definition cont (b : N) : bool := (128 <=? b) && (b <? 192).

(** [std::str::from_utf8]: [None] is [Err].  Overlong forms, surrogates and
    values above 0x10FFFF are rejected, as Rust's validator does. *)
Fixpoint from_utf8 (bs : list N) : option (list char) :=
  match bs with
  | [] => Some []
  | b0 :: r0 =>
      let ret (c : N) (r : option (list char)) :=
        match r with Some l => Some (c :: l) | None => None end in
      if b0 <? 128 then ret b0 (from_utf8 r0)
      else if (194 <=? b0) && (b0 <? 224) then
        match r0 with
        | b1 :: r1 => if cont b1 then ret ((b0 - 192) * 64 + (b1 - 128)) (from_utf8 r1) else None
        | [] => None
        end
      else if (224 <=? b0) && (b0 <? 240) then
        match r0 with
        | b1 :: b2 :: r2 =>
            let c := (b0 - 224) * 4096 + (b1 - 128) * 64 + (b2 - 128) in
            if cont b1 && cont b2 && (2048 <=? c) && is_scalar c
            then ret c (from_utf8 r2) else None
        | _ => None
        end
      else if (240 <=? b0) && (b0 <? 245) then
        match r0 with
        | b1 :: b2 :: b3 :: r3 =>
            let c := (b0 - 240) * 262144 + (b1 - 128) * 4096 + (b2 - 128) * 64 + (b3 - 128) in
            if cont b1 && cont b2 && cont b3 && (65536 <=? c) && is_scalar c
            then ret c (from_utf8 r3) else None
        | _ => None
        end
      else None
  end.

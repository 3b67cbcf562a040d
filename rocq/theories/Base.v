(** Base.v -- Rust's [&str], byte offsets and panics, as used throughout
    /repo/src.  No proofs in this file.

    A Rust [char] is modelled by its code point (an [N]); a [str] by the list
    of its chars together with the address of its first byte, because the code
    computes byte offsets by subtracting [as_ptr()]s
    (src/rules.rs:104-114,162,172,180-196; src/span.rs:174-180;
    src/decompose/mod.rs:129-130).

    Simplifications: every [N] is accepted as a char (Rust allows only
    scalar values below 0x110000 that are not surrogates; the model's
    statements hold for the larger set); addresses ([usize]) are unbounded. *)
From Coq Require Export List NArith Bool Ascii String.
From Coq Require Import Lia.
Export ListNotations.
Open Scope N_scope.
Open Scope list_scope.

Definition char := N.

(** Number of bytes of a char in UTF-8 ([char::len_utf8]). *)
Definition clen (c : char) : N :=
  if c <? 128 then 1 else if c <? 2048 then 2 else if c <? 65536 then 3 else 4.

(** [str::len]: number of bytes. *)
Fixpoint blen (t : list char) : N :=
  match t with [] => 0 | c :: u => clen c + blen u end.

(** A borrowed string slice: address of the first byte, and contents. *)
Record str := mkstr { ptr : N; txt : list char }.

Definition s_len (s : str) : N := blen (txt s).
Definition s_is_empty (s : str) : bool := match txt s with [] => true | _ => false end.

(** ASCII literals.  [lit "abc"] is the char list of the Rust literal "abc". *)
Fixpoint lit (s : string) : list char :=
  match s with
  | EmptyString => []
  | String a u => N_of_ascii a :: lit u
  end.

Definition COMMA : char := 44.   (* ',' *)
Definition is_comma (c : char) : bool := c =? COMMA.

(** [str::contains(char)] *)
Definition mem_char (c : char) (l : list char) : bool := existsb (N.eqb c) l.

(** Split a char list at a byte offset; [None] when the offset is not a char
    boundary (or is past the end).  The panicking [str::split_at],
    [&s[a..b]] and the non-panicking [str::get] all use it. *)
Fixpoint split_bytes (t : list char) (n : N) : option (list char * list char) :=
  if n =? 0 then Some ([], t)
  else match t with
       | [] => None
       | c :: u =>
           if clen c <=? n then
             match split_bytes u (n - clen c) with
             | Some (a, b) => Some (c :: a, b)
             | None => None
             end
           else None
       end.

(** [s.get(a..b)]: [None] unless [a <= b <= len] and both are boundaries. *)
Definition s_get (s : str) (a b : N) : option str :=
  if b <? a then None
  else match split_bytes (txt s) a with
       | None => None
       | Some (_, u) =>
           match split_bytes u (b - a) with
           | None => None
           | Some (m, _) => Some (mkstr (ptr s + a) m)
           end
       end.

(** [s.get(a..)] *)
Definition s_get_from (s : str) (a : N) : option str :=
  match split_bytes (txt s) a with
  | None => None
  | Some (_, u) => Some (mkstr (ptr s + a) u)
  end.

(** [s.get(..b)] *)
Definition s_get_to (s : str) (b : N) : option str :=
  match split_bytes (txt s) b with
  | None => None
  | Some (m, _) => Some (mkstr (ptr s) m)
  end.

(** [s.split_at(n)]; [None] is Rust's panic. *)
Definition s_split_at (s : str) (n : N) : option (str * str) :=
  match split_bytes (txt s) n with
  | None => None
  | Some (a, b) => Some (mkstr (ptr s) a, mkstr (ptr s + n) b)
  end.

(** Outcome of a computation: a value, a Rust panic, or [Diverge] when the
    model's recursion bound was reached (proved unreachable for every function
    of the model; a real non-terminating loop would end up here). *)
Inductive outcome (A : Type) : Type :=
| Ret (a : A)
| Panic
| Diverge.
Arguments Ret {A} a.
Arguments Panic {A}.
Arguments Diverge {A}.

Definition obind {A B} (x : outcome A) (f : A -> outcome B) : outcome B :=
  match x with Ret a => f a | Panic => Panic | Diverge => Diverge end.
Definition unwrap {A} (x : option A) : outcome A :=
  match x with Some a => Ret a | None => Panic end.
Notation "'let!' x ':=' e 'in' k" := (obind e (fun x => k))
  (at level 200, x pattern, e at level 100, k at level 200, right associativity).

(** u32 arithmetic.  [U32MAX] is [u32::MAX]. *)
Definition U32MAX : N := 4294967295.

(** [u32::try_from(x).unwrap()] *)
Definition to_u32 (x : N) : outcome N := if x <=? U32MAX then Ret x else Panic.

(** Build profile: integer overflow panics in debug builds (the default of
    [cargo build]/[cargo test]) and wraps in release builds. *)
Inductive build := Debug | Release.

Definition u32_add (bm : build) (a b : N) : outcome N :=
  if a + b <=? U32MAX then Ret (a + b)
  else match bm with Debug => Panic | Release => Ret ((a + b) mod 4294967296) end.
Definition u32_sub (bm : build) (a b : N) : outcome N :=
  if b <=? a then Ret (a - b)
  else match bm with Debug => Panic | Release => Ret ((4294967296 + a - b) mod 4294967296) end.

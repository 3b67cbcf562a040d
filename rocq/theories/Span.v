(** Span.v -- /repo/src/span.rs.  [Location] is [u32] (span.rs:7); the model
    keeps locations in [N] and writes the u32 overflow checks explicitly, with
    the build profile as a parameter: arithmetic overflow panics under
    [Debug] and wraps under [Release].  No proofs in this file. *)
From Verif Require Import Base.

(** span.rs:17-23; both fields are public, so [end < start] is representable. *)
Record span := mkspan { sp_start : N; sp_end : N }.

(** span.rs:17 derived [PartialEq] *)
Definition span_eqb (a b : span) : bool :=
  (sp_start a =? sp_start b) && (sp_end a =? sp_end b).

(** span.rs:47-50 *)
Definition span_new (start end_ : N) : outcome span :=
  if start <=? end_ then Ret (mkspan start end_) else Panic.

(** span.rs:64-69 *)
Definition span_at (bm : build) (start len : N) : outcome span :=
  let! e := u32_add bm start len in Ret (mkspan start e).

(** span.rs:83-85 *)
Definition span_len (bm : build) (s : span) : outcome N := u32_sub bm (sp_end s) (sp_start s).

(** span.rs:99-101 *)
Definition span_is_empty (s : span) : bool := sp_end s =? sp_start s.

(** span.rs:287-289: [(start..end).contains(&location)] *)
Definition span_contains (s : span) (l : N) : bool := (sp_start s <=? l) && (l <? sp_end s).

(** span.rs:311-313 *)
Definition non_commutative_empty_check (left right : span) : bool :=
  span_is_empty left && ((sp_end right =? sp_start left) || (sp_start right =? sp_start left)).

(** span.rs:314-316; [||] does not evaluate its right operand when the left is
    true, so [right.end - 1] is computed only when [left] does not contain
    [right.start]. *)
Definition non_commutative_helper (bm : build) (left right : span) : outcome bool :=
  if span_contains left (sp_start right) then Ret true
  else let! e := u32_sub bm (sp_end right) 1 in Ret (span_contains left e).

(** span.rs:310-322 *)
Definition span_overlaps_with (bm : build) (self other : span) : outcome bool :=
  if non_commutative_empty_check self other || non_commutative_empty_check other self
  then Ret false
  else let! b := non_commutative_helper bm self other in
       if (b : bool) then Ret true else non_commutative_helper bm other self.

(** span.rs:118-127 *)
Definition span_between (bm : build) (before after : span) : outcome (option span) :=
  let! b := span_overlaps_with bm before after in
  if (b : bool) || (sp_start after <=? sp_end before) then Ret None
  else Ret (Some (mkspan (sp_end before) (sp_start after))).

(** span.rs:146-151 *)
Definition span_entire_slice (s : str) : outcome span :=
  let! e := to_u32 (s_len s) in Ret (mkspan 0 e).

(** span.rs:174-180 *)
Definition span_from_embedded_slice (bm : build) (outer_start_ptr : N) (embedded : str)
    : outcome span :=
  if outer_start_ptr <=? ptr embedded then
    let! start := to_u32 (ptr embedded - outer_start_ptr) in
    let! len := to_u32 (s_len embedded) in
    let! e := u32_add bm start len in
    Ret (mkspan start e)
  else Panic.

(** span.rs:212-214 *)
Definition span_slice (s : span) (text : str) : option str := s_get text (sp_start s) (sp_end s).

(** span.rs:240-242 *)
Definition span_slice_after (s : span) (text : str) : option str := s_get_from text (sp_end s).

(** span.rs:268-270 *)
Definition span_slice_before (s : span) (text : str) : option str := s_get_to text (sp_start s).

(** SpecCase.v -- vocabulary for C75: texts that differ in the case of consonants
    and of y.  Specification only. *)
From Verif Require Import Base SpecMorph.

(** The same consonant, or the same y, perhaps one of them a capital. *)
Definition same_but_case (c d : char) : Prop := lower c = lower d /\ In (lower c) (lit "bcdfgjklmnprstvxzy").

(** [case_edit t u]: [u] is [t] with some consonants and some y written in the
    other case (the five vowels are left alone: their capitals mark stress). *)
Definition case_edit : list char -> list char -> Prop := Forall2 (fun c d => c = d \/ same_but_case c d).

Definition capital (c : char) : Prop := 65 <= c <= 90.

(** SpecWords.v -- vocabulary for the statements about the words that
    decomposition cuts.  Specification only: nothing here is used by the model. *)
From Verif Require Import Base Span SpecText SpecMorph.

(** No capital A E I O U, by which a speaker marks stress. *)
Definition no_capital_vowel (t : list char) : Prop := Forall (fun c => ~ In c (lit "AEIOU")) t.

(** Every comma of the text is followed by a char that is not a separator. *)
Definition commas_inside (t : list char) : Prop :=
  forall a b, t = a ++ 44 :: b -> exists c b', b = c :: b' /\ ~ is_sep c.

(** The spans [sps] of [s] have the texts [us]. *)
Definition spelled (s : str) (sps : list span) (us : list (list char)) : Prop :=
  Forall2 (fun sp u => exists p, span_slice sp s = Some (mkstr p u)) sps us.

(** The spans of words written one after the other, from byte [o] on. *)
Fixpoint consecutive (o : N) (us : list (list char)) : list span :=
  match us with
  | [] => []
  | u :: l => mkspan o (o + blen u) :: consecutive (o + blen u) l
  end.

(** Words separated by spaces. *)
Fixpoint spaced (us : list (list char)) : list char :=
  match us with
  | [] => []
  | [u] => u
  | u :: l => u ++ 32 :: spaced l
  end.

Definition starts_with_consonant (w : list char) : Prop := exists c u, w = c :: u /\ consonant_letter c.

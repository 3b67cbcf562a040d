(** SpecMorph.v -- the sounds and word shapes of Lojban as the reference grammar
    describes them (The Complete Lojban Language, chapters 3 and 4), for the
    statements about classification.  Specification only: nothing here is used
    by the model. *)
From Verif Require Import Base.

(** Letters without regard to case. *)
Definition lower (c : char) : char := if (65 <=? c) && (c <=? 90) then c + 32 else c.

Definition consonant_letter (c : char) : Prop := In (lower c) (lit "bcdfgjklmnprstvxz").
Definition voiced_letter (c : char) : Prop := In (lower c) (lit "bdgjvz").
Definition unvoiced_letter (c : char) : Prop := In (lower c) (lit "cfkpstx").
(** the vowel letters proper, and with y *)
Definition vowel_letter (c : char) : Prop := In (lower c) (lit "aeiou").
Definition vowel_or_y (c : char) : Prop := In (lower c) (lit "aeiouy").
Definition lowercase_vowel (c : char) : Prop := In c (lit "aeiou").
Definition digit_char (c : char) : Prop := In c (lit "0123456789").
Definition apostrophe (c : char) : Prop := In c (lit "'h").

(** CLL 3.6: a permissible consonant pair. *)
Definition permissible (x y : char) : Prop :=
  consonant_letter x /\ consonant_letter y /\
  lower x <> lower y /\
  ~ (voiced_letter x /\ unvoiced_letter y) /\ ~ (unvoiced_letter x /\ voiced_letter y) /\
  ~ (In (lower x) (lit "cjsz") /\ In (lower y) (lit "cjsz")) /\
  ~ In [lower x; lower y] [lit "cx"; lit "kx"; lit "xc"; lit "xk"; lit "mz"].

(** CLL 3.6: the consonant triples that are forbidden although their pairs are
    permissible. *)
Definition forbidden_triple (x y z : char) : Prop :=
  In [lower x; lower y; lower z] [lit "ndj"; lit "ndz"; lit "ntc"; lit "nts"].

(** CLL 3.7: the 48 permissible initial pairs. *)
Definition INITIAL_PAIRS : list (list char) :=
  map lit ["bl"; "br"; "cf"; "ck"; "cl"; "cm"; "cn"; "cp"; "cr"; "ct"; "dj"; "dr"; "dz"; "fl"; "fr";
           "gl"; "gr"; "jb"; "jd"; "jg"; "jm"; "jv"; "kl"; "kr"; "ml"; "mr"; "pl"; "pr"; "sf"; "sk";
           "sl"; "sm"; "sn"; "sp"; "sr"; "st"; "tc"; "tr"; "ts"; "vl"; "vr"; "xl"; "xr"; "zb"; "zd";
           "zg"; "zm"; "zv"]%string.
Definition initial_pair (x y : char) : Prop := In [lower x; lower y] INITIAL_PAIRS.

(** CLL 4.4: the two gismu forms, CVC/CV and CCVCV, given the letters allowed
    for the first vowel and for the last one. *)
Definition gismu_form (first_vowel last_vowel : char -> Prop) (w : list char) : Prop :=
  (exists c1 v1 c2 c3 v2, w = [c1; v1; c2; c3; v2] /\
     consonant_letter c1 /\ first_vowel v1 /\ permissible c2 c3 /\ last_vowel v2) \/
  (exists c1 c2 v1 c3 v2, w = [c1; c2; v1; c3; v2] /\
     initial_pair c1 c2 /\ first_vowel v1 /\ consonant_letter c3 /\ last_vowel v2).

(** Vowels and diphthongs: one of a e i o u y, or ai ei oi au (CLL 3.4). *)
Definition nucleus (n : list char) : Prop :=
  (exists v, n = [v] /\ vowel_or_y v) \/
  (exists v w, n = [v; w] /\ In [lower v; lower w] (map lit ["ai"; "ei"; "oi"; "au"]%string)).

(** one or more nuclei separated by apostrophes *)
Inductive nuclei : list char -> Prop :=
| nuclei_one n : nucleus n -> nuclei n
| nuclei_more n h r : nucleus n -> apostrophe h -> nuclei r -> nuclei (n ++ h :: r).

(** The form of a cmavo (CLL 4.2): an optional single consonant, or i or u as a
    glide, and then nuclei separated by apostrophes. *)
Definition cmavo_form (w : list char) : Prop :=
  nuclei w \/
  exists c r, w = c :: r /\ nuclei r /\ (consonant_letter c \/ In (lower c) (lit "iu")).

(** Everything the program takes for a cmavo by its shape: that form, a single
    digit, or the hesitation word of one or more y. *)
Definition cmavo_text (u : list char) : Prop :=
  (exists d, u = [d] /\ digit_char d) \/ (u <> [] /\ Forall (fun c => In c (lit "yY")) u) \/ cmavo_form u.

Definition ends_with (P : char -> Prop) (w : list char) : Prop := exists m c, w = m ++ [c] /\ P c.

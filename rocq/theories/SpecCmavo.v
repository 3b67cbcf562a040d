(** SpecCmavo.v -- vocabulary for the statements about classification.
    [table_arms] (ClassifyTable.v) is the list of cmavo of the source; nothing
    else of the model is used. *)
From Verif Require Import Base Selmaho ClassifyTable SpecText.

(** A word spelled out: without commas, [h] written as the apostrophe. *)
Definition spelling (t : list char) : list char :=
  map (fun c => if c =? 104 then 39 else c) (letters t).

(** [listed w s e]: the table has the cmavo [w] in selma'o [s]; [e] says whether
    it is marked experimental.  The hesitation word may have any number of [y]. *)
Definition listed (w : list char) (s : Selmaho) (e : bool) : Prop :=
  (exists l x, In (Lits l, s, e) table_arms /\ In x l /\ w = lit x) \/
  (In (AllY, s, e) table_arms /\ exists n, w = repeat 121 (S n)).

(** The selma'o of the reference grammar (CLL chapter 20). *)
Definition cll_selmaho : list string := [
  "A"; "BAI"; "BAhE"; "BE"; "BEI"; "BEhO"; "BIhE"; "BIhI"; "BO"; "BOI"; "BU"; "BY"; "CAI"; "CAhA"; "CEI";
  "CEhE"; "CO"; "COI"; "CU"; "CUhE"; "DAhO"; "DOI"; "DOhU"; "FA"; "FAhA"; "FAhO"; "FEhE"; "FEhU"; "FIhO";
  "FOI"; "FUhA"; "FUhE"; "FUhO"; "GA"; "GAhO"; "GEhU"; "GI"; "GIhA"; "GOI"; "GOhA"; "GUhA"; "I"; "JA"; "JAI";
  "JOI"; "JOhI"; "KE"; "KEI"; "KEhE"; "KI"; "KOhA"; "KU"; "KUhE"; "KUhO"; "LA"; "LAU"; "LAhE"; "LE"; "LEhU";
  "LI"; "LIhU"; "LOhO"; "LOhU"; "LU"; "LUhU"; "MAI"; "MAhO"; "ME"; "MEhU"; "MOI"; "MOhE"; "MOhI"; "NA"; "NAI";
  "NAhE"; "NAhU"; "NIhE"; "NIhO"; "NOI"; "NU"; "NUhA"; "NUhI"; "NUhU"; "PA"; "PEhE"; "PEhO"; "PU"; "RAhO";
  "ROI"; "SA"; "SE"; "SEI"; "SEhU"; "SI"; "SOI"; "SU"; "TAhE"; "TEI"; "TEhU"; "TO"; "TOI"; "TUhE"; "TUhU";
  "UI"; "VA"; "VAU"; "VEI"; "VEhA"; "VEhO"; "VIhA"; "VUhO"; "VUhU"; "XI"; "Y"; "ZAhO"; "ZEI"; "ZEhA"; "ZI";
  "ZIhE"; "ZO"; "ZOI"; "ZOhU"]%string.

(** Word classes that are not selma'o. *)
Definition is_word_class (s : Selmaho) : Prop :=
  In s [S_Gismu; S_Fuhivla; S_Lujvo; S_Cmevla; S_AnyText; S_ZoiDelimiter].

(** Selma'o that only exist as experimental extensions, including unknown cmavo. *)
Definition experimental_selmaho (s : Selmaho) : Prop :=
  ~ In (as_repr s) cll_selmaho /\ ~ is_word_class s.

(** Characters of Lojban words. *)
Definition lojban_char (c : char) : Prop :=
  In c (lit "abcdefgijklmnoprstuvxyzABCDEFGIJKLMNOPRSTUVXYZ0123456789'h,").

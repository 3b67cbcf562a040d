(** SpecFragment.v -- vocabulary of the statements C62 and on, about which texts
    the parser accepts; specification only.  It refers to the code only through
    tokens and their selma'o. *)
From Verif Require Import Base Selmaho Lex SpecCst.

(** * C62: attitudinals and emphasis *)

(** The words that express an attitude or a hesitation: UI, CAI, NAI, DAhO, FUhO, Y;
    and ba'e, which emphasises the next word. *)
Definition attitudes : list Selmaho := [S_Ui; S_Cai; S_Nai; S_Daho; S_Fuho; S_Y].
Definition coloring : list Selmaho := S_Bahe :: attitudes.

(** The tokens that are not of the given classes. *)
Definition without (l : list Selmaho) (toks : list token) : list token :=
  filter (fun t => negb (existsb (sel_eqb (selmaho t)) l)) toks.

(** Every ba'e stands before a word, other than lu. *)
Definition emphasises (toks : list token) : Prop :=
  forall m b rest, toks = m ++ b :: rest -> selmaho b = S_Bahe ->
  exists u rest', rest = u :: rest' /\ selmaho u <> S_Lu.

(** * C63: the end of a text *)

(** Terminators that may be left out at the end of a text. *)
Definition final_elidable : list Selmaho :=
  [S_Beho; S_Boi; S_Dohu; S_Fehu; S_Gehu; S_Kei; S_Kuhe; S_Kuho; S_Lihu; S_Loho; S_Luhu; S_Mehu; S_Nuhu; S_Raho;
   S_Sehu; S_Tehu; S_Toi; S_Tuhu; S_Vau; S_Veho].

Definition ends_with (s : Selmaho) (toks : list token) : Prop := exists m t, toks = m ++ [t] /\ selmaho t = s.

(** * C64: the three kinds of brivla *)

Definition brivla : list Selmaho := [S_Gismu; S_Lujvo; S_Fuhivla].

(** Texts that differ only in which kind of brivla stands where there is one. *)
Definition same_but_brivla (a b : list token) : Prop :=
  Forall2 (fun t u => selmaho t = selmaho u \/ (In (selmaho t) brivla /\ In (selmaho u) brivla)) a b.

(** * C66: sentences and paragraphs *)

(** Words that open a piece of text of its own, with the words that close it. *)
Definition groups : list (Selmaho * Selmaho) := [(S_Lu, S_Lihu); (S_To, S_Toi); (S_Tuhe, S_Tuhu)].

(** Everything opened is closed: from every point on there are at least as many
    closing words as opening ones. *)
Definition closes (toks : list token) : Prop :=
  forall o c m rest, In (o, c) groups -> toks = m ++ rest -> (number_of [o] rest <= number_of [c] rest)%nat.

(** Words that a connective or a tag can begin with, and words one of which is
    needed to attach a sentence to the one before ([.i je], [.i pu bo], ...). *)
Definition attach_first : list Selmaho :=
  [S_Bai; S_Bihi; S_Bo; S_Caha; S_Cuhe; S_Faha; S_Fehe; S_Fiho; S_Gaho; S_Ja; S_Joi; S_Ki; S_Mohi; S_Na; S_Nahe; S_Pa; S_Pu; S_Se;
   S_Tahe; S_Va; S_Veha; S_Viha; S_Zaho; S_Zeha; S_Zi].
Definition attach_with : list Selmaho := [S_Ja; S_Joi; S_Bihi; S_Bo; S_Tei].

Definition begins_with (l : list Selmaho) (toks : list token) : Prop := exists t rest, toks = t :: rest /\ In (selmaho t) l.

(** After .i, [toks] could be attached to the sentence before. *)
Definition attaches (toks : list token) : Prop :=
  begins_with attach_first toks /\ exists s, In s attach_with /\ contains s toks.

(** .i itself, and words that free modifiers begin with. *)
Definition late_first : list Selmaho := [S_I; S_By; S_Coi; S_Doi; S_Lau; S_Pa; S_Sei; S_Soi; S_Tei; S_To; S_Xi].

(** [toks] is not attached to what comes before an .i in front of it; if it does
    not start with a sentence right away, nothing after an .i in it could be. *)
Definition separate (toks : list token) : Prop :=
  ~ attaches toks /\
  (begins_with late_first toks -> forall m i rest, toks = m ++ i :: rest -> selmaho i = S_I -> ~ attaches rest).

(** Words with quoting, attitudinals, emphasis and fa'o are set aside. *)
Definition plain_words (toks : list token) : Prop :=
  forall t, In t toks -> ~ In (selmaho t) ([S_Faho; S_Fuhe] ++ coloring ++ quoting).

(** A text with further pieces, each after a separator. *)
Definition joined (a : list token) (l : list (token * list token)) : list token :=
  a ++ List.concat (map (fun p => fst p :: snd p) l).

(** CstRules.v -- the grammar of /repo/src/parse/cst/rules/*.rs, one [cnt] per
    non-generic struct or enum, generic ones as functions, type aliases as
    definitions.  The structure follows the [Parse] and [TreeNode] derives
    (macros/src/derive_parse.rs, derive_tree_node.rs): fields become tuples,
    variants alternatives; references are transparent.  No proofs in this file. *)
From Verif Require Import Base Span Selmaho Lex Cst.

Inductive cnt : Set :=
| G_Bu
| G_Bahe
| G_Zei
| G_Frees
| G_Text
| G_Paragraphs
| G_Paragraph
| G_ParagraphItem
| G_Fragment
| G_Sentences1
| G_Sentences3
| G_ParagraphSeparator
| G_SentenceSeparator
| G_ConnectedSentenceSeparator
| G_CloseSentenceSeparator
| G_Sentence
| G_SentenceTail
| G_SentenceTail1
| G_SentenceTail1After
| G_SentenceTail2
| G_SentenceTail2Connective
| G_SentenceTail2After
| G_SentenceTail3
| G_SentenceTail3After
| G_SentenceTail4
| G_GekSentence
| G_Subsentence
| G_Args
| G_TailArgs
| G_Prenex
| G_Arg
| G_PeheConnective
| G_Arg3
| G_Termset
| G_Selbri
| G_SelbriBefore
| G_Selbri1
| G_Selbri2
| G_Selbri3
| G_Selbri4
| G_Selbri5
| G_Selbri6
| G_TanruUnit
| G_TanruUnit1
| G_BeforeTanruUnit
| G_BoundArguments
| G_TanruUnit2
| G_ZeiClause
| G_ZeiBuInner
| G_ZeiTail
| G_Tag
| G_TagValue
| G_TagWord
| G_TimeSpaceCaha
| G_Time
| G_TimeOffset
| G_TimeDuration
| G_IntervalProperty
| G_Space
| G_SpaceOffset
| G_SpaceInterval
| G_SpaceIntervalProperty
| G_SpaceMotion
| G_Sumti
| G_Sumti1
| G_VuhoRelative
| G_RelativeClauses
| G_RelativeClause
| G_GoiRelativeClause
| G_NoiRelativeClause
| G_Sumti3
| G_Sumti3ConnectedPre
| G_Sumti4
| G_Quantifier
| G_Number
| G_NumberRest
| G_LerfuString
| G_MiscNumbers
| G_LerfuWord
| G_Lerfu
| G_BuInner
| G_SumtiComponent1
| G_LohuSumti
| G_LuSumti
| G_ModifiedSumti
| G_SumtiModifier
| G_GadriSumti
| G_Gadri
| G_GadriSumtiPre
| G_GadriSumtiContents
| G_LaSumti
| G_ZoSumti
| G_ZoiSumti
| G_ZoiDelimiter
| G_ZoiText
| G_Free
| G_Vocative
| G_SeiTail
| G_VocativeWords
| G_VocativeValue
| G_Subscript
| G_SubscriptValue
| G_Indicators
| G_Indicator
| G_Guhek
| G_Interval
| G_Joik
| G_Gik
| G_Gek
| G_JoikJek
| G_JoikEk
| G_Expression
| G_ReversePolish
| G_RPTail
| G_Expression1
| G_ForethoughtExpression
| G_Operand
| G_Operand1
| G_Operand2
| G_Operand2ConnectedPre
| G_Operand3
| G_Operator
| G_Operator1
| G_Operator2
| G_Operator3
| G_OperatorComponent
| G_OperatorComponentPre
| G_OperatorComponent1
| G_Ek
| G_Jek
| G_Gihek.

Definition all_cnts : list cnt :=
  [G_Bu; G_Bahe; G_Zei; G_Frees; G_Text; G_Paragraphs; G_Paragraph; G_ParagraphItem; G_Fragment; G_Sentences1; G_Sentences3; G_ParagraphSeparator; G_SentenceSeparator; G_ConnectedSentenceSeparator; G_CloseSentenceSeparator; G_Sentence; G_SentenceTail; G_SentenceTail1; G_SentenceTail1After; G_SentenceTail2; G_SentenceTail2Connective; G_SentenceTail2After; G_SentenceTail3; G_SentenceTail3After; G_SentenceTail4; G_GekSentence; G_Subsentence; G_Args; G_TailArgs; G_Prenex; G_Arg; G_PeheConnective; G_Arg3; G_Termset; G_Selbri; G_SelbriBefore; G_Selbri1; G_Selbri2; G_Selbri3; G_Selbri4; G_Selbri5; G_Selbri6; G_TanruUnit; G_TanruUnit1; G_BeforeTanruUnit; G_BoundArguments; G_TanruUnit2; G_ZeiClause; G_ZeiBuInner; G_ZeiTail; G_Tag; G_TagValue; G_TagWord; G_TimeSpaceCaha; G_Time; G_TimeOffset; G_TimeDuration; G_IntervalProperty; G_Space; G_SpaceOffset; G_SpaceInterval; G_SpaceIntervalProperty; G_SpaceMotion; G_Sumti; G_Sumti1; G_VuhoRelative; G_RelativeClauses; G_RelativeClause; G_GoiRelativeClause; G_NoiRelativeClause; G_Sumti3; G_Sumti3ConnectedPre; G_Sumti4; G_Quantifier; G_Number; G_NumberRest; G_LerfuString; G_MiscNumbers; G_LerfuWord; G_Lerfu; G_BuInner; G_SumtiComponent1; G_LohuSumti; G_LuSumti; G_ModifiedSumti; G_SumtiModifier; G_GadriSumti; G_Gadri; G_GadriSumtiPre; G_GadriSumtiContents; G_LaSumti; G_ZoSumti; G_ZoiSumti; G_ZoiDelimiter; G_ZoiText; G_Free; G_Vocative; G_SeiTail; G_VocativeWords; G_VocativeValue; G_Subscript; G_SubscriptValue; G_Indicators; G_Indicator; G_Guhek; G_Interval; G_Joik; G_Gik; G_Gek; G_JoikJek; G_JoikEk; G_Expression; G_ReversePolish; G_RPTail; G_Expression1; G_ForethoughtExpression; G_Operand; G_Operand1; G_Operand2; G_Operand2ConnectedPre; G_Operand3; G_Operator; G_Operator1; G_Operator2; G_Operator3; G_OperatorComponent; G_OperatorComponentPre; G_OperatorComponent1; G_Ek; G_Jek; G_Gihek].

(** The token types of cst/rules/selmaho.rs.  [@raw] (:57-122): the word itself,
    not followed by bu or zei. *)
Definition tok_raw (name : string) (s : Selmaho) : gexp cnt :=
  GNotAfter (GNotAfter (GTok s) (GCall G_Bu)) (GCall G_Zei).
(** [@no_indicators] (:123-174): ba'e words, then the word. *)
Definition tok_no_indicators (name : string) (s : Selmaho) : gexp cnt :=
  GNode name (GNotAfter (GNotAfter (gtuple [GMany0 (GCall G_Bahe); GTok s]) (GCall G_Bu)) (GCall G_Zei)).
(** [@single] (:175-231): also indicators after the word. *)
Definition tok_single (name : string) (s : Selmaho) : gexp cnt :=
  GNode name (GNotAfter (GNotAfter (gtuple [GMany0 (GCall G_Bahe); GTok s; GOpt (GCall G_Indicators)]) (GCall G_Bu)) (GCall G_Zei)).

(** cst/rules/mod.rs:25-30 *)
Definition g_with_free (x0 : gexp cnt) : gexp cnt :=
  (gtuple [x0;
        (GCall G_Frees)]).

(** cst/rules/mod.rs:354-361 *)
Definition g_nahe_guhek_t_gik (x0 : gexp cnt) : gexp cnt :=
  (GNode "NaheGuhekTGik" (gtuple [(GOpt (tok_single "Nahe" S_Nahe));
        (GCall G_Frees);
        (GCall G_Guhek);
        x0;
        (GCall G_Gik)])).

(** cst/rules/helpers.rs:42-47 (the [TreeNode] impl is written out by hand, :42-82) *)
Definition g_separated (x0 : gexp cnt) (x1 : gexp cnt) : gexp cnt :=
  (GNode "Separated" (gtuple [x0;
        (GMany0 (gtuple [x1; x0]))])).

(** cst/rules/helpers.rs:106-112 *)
Definition g_either_or_both (x0 : gexp cnt) (x1 : gexp cnt) : gexp cnt :=
  (galt (gtuple [x1]) [
      (gtuple [x0;
        x1]);
      (gtuple [x0])]).

(** cst/rules/connectives.rs:5-11 *)
Definition g_na_se_t_nai (x0 : gexp cnt) : gexp cnt :=
  (GNode "NaSeTNai" (gtuple [(GOpt (tok_single "Na" S_Na));
        (GOpt (tok_single "Se" S_Se));
        x0;
        (GOpt (tok_single "Nai" S_Nai))])).

(** cst/rules/mod.rs:36-36 *)
Definition al_Root : gexp cnt := (GCall G_Text).

(** cst/rules/mod.rs:56-57 *)
Definition al_ParagraphItems : gexp cnt := (g_separated (GCall G_ParagraphItem) (GCall G_SentenceSeparator)).

(** cst/rules/mod.rs:89-89 *)
Definition al_Sentences2 : gexp cnt := (g_separated (GCall G_Sentences3) (GCall G_CloseSentenceSeparator)).

(** cst/rules/mod.rs:254-254 *)
Definition al_Arg2 : gexp cnt := (g_separated (GCall G_Arg3) (g_with_free (tok_single "Cehe" S_Cehe))).

(** cst/rules/mod.rs:477-477 *)
Definition al_TagWords : gexp cnt := (g_separated (GCall G_TagWord) (GCall G_JoikJek)).

(** cst/rules/mod.rs:545-545 *)
Definition al_TimeIntervalProperty : gexp cnt := (GCall G_IntervalProperty).

(** cst/rules/mod.rs:606-615 *)
Definition al_Sumti2 : gexp cnt := (g_separated (GCall G_Sumti3) (gtuple [(GCall G_JoikEk); (GOpt al_TagWords); (tok_single "Bo" S_Bo); (GCall G_Frees)])).

(** cst/rules/mod.rs:746-746 *)
Definition al_SumtiComponent : gexp cnt := (g_with_free (GCall G_SumtiComponent1)).

(** cst/rules/mekso.rs:118-118 *)
Definition al_OperandModifier : gexp cnt := (GCall G_SumtiModifier).

(** cst/rules/mod.rs:320-331 *)
Definition g_selbri_like_connected_post (x0 : gexp cnt) (x1 : gexp cnt) : gexp cnt :=
  (galt (GNode "SelbriLikeConnectedPost::Normal" (gtuple [(GCall G_JoikJek);
        x0])) [
      (GNode "SelbriLikeConnectedPost::Parenthesized" (gtuple [(GCall G_JoikJek);
        (GOpt al_TagWords);
        (g_with_free (tok_single "Ke" S_Ke));
        x1;
        (GOpt (tok_single "Kehe" S_Kehe));
        (GCall G_Frees)]))]).

(** cst/rules/mod.rs:593-604 *)
Definition g_sumti_like_connected_post (x0 : gexp cnt) (x1 : gexp cnt) : gexp cnt :=
  (galt (GNode "SumtiLikeConnectedPost::Normal" (gtuple [(GCall G_JoikEk);
        x0])) [
      (GNode "SumtiLikeConnectedPost::Grouped" (gtuple [(GCall G_JoikEk);
        (GOpt al_TagWords);
        (g_with_free (tok_single "Ke" S_Ke));
        x1;
        (GOpt (tok_single "Kehe" S_Kehe));
        (GCall G_Frees)]))]).

(** cst/rules/mod.rs:184-189 *)
Definition al_SentenceTail3Connective : gexp cnt := (gtuple [(GCall G_Gihek); (GOpt al_TagWords); (tok_single "Bo" S_Bo); (GCall G_Frees)]).

(** cst/rules/mod.rs:249-249 *)
Definition al_Arg1 : gexp cnt := (g_separated al_Arg2 (GCall G_PeheConnective)).

(** cst/rules/mod.rs:317-318 *)
Definition al_Selbri3ConnectedPost : gexp cnt := (g_selbri_like_connected_post (GCall G_Selbri4) (GCall G_Selbri2)).

(** cst/rules/mekso.rs:55-56 *)
Definition al_ConnectedOperand : gexp cnt := (g_sumti_like_connected_post (GCall G_Operand1) (GCall G_Operand)).

(** cst/rules/mekso.rs:126-127 *)
Definition al_ConnectedOperator : gexp cnt := (g_selbri_like_connected_post (GCall G_Operator1) (GCall G_Operator)).

Definition crule (n : cnt) : gexp cnt :=
  match n with
  (* cst/rules/selmaho.rs:387-437 *)
  | G_Bu => GTok S_Bu
  (* cst/rules/selmaho.rs, [@raw] *)
  | G_Bahe => tok_raw "Bahe" S_Bahe
  (* cst/rules/selmaho.rs, [@no_indicators] *)
  | G_Zei => tok_no_indicators "Zei" S_Zei
  (* cst/rules/mod.rs:32-34 *)
  | G_Frees =>
      (gtuple [(GMany0 (GCall G_Free))])
  (* cst/rules/mod.rs:38-45 *)
  | G_Text =>
      (GNode "Text" (gtuple [(GOpt (GCall G_Indicators));
        (GCall G_Frees);
        (GOpt (GCall G_ParagraphSeparator));
        (GOpt (GCall G_Paragraphs));
        (GOpt (tok_single "Faho" S_Faho))]))
  (* cst/rules/mod.rs:47-48 *)
  | G_Paragraphs =>
      (GNode "Paragraphs" (gtuple [(g_separated (GCall G_Paragraph) (GCall G_ParagraphSeparator))]))
  (* cst/rules/mod.rs:50-54 *)
  | G_Paragraph =>
      (GNode "Paragraph" (gtuple [(GOpt (GCall G_SentenceSeparator));
        al_ParagraphItems]))
  (* cst/rules/mod.rs:59-65 *)
  | G_ParagraphItem =>
      (galt (GConsume "Self :: Sentences" (GNode "ParagraphItem::Sentences" (gtuple [(GCall G_Sentences1)]))) [
      (GNode "ParagraphItem::Fragment" (gtuple [(GCall G_Fragment)]));
      (GNode "ParagraphItem::Empty" (gtuple []))])
  (* cst/rules/mod.rs:67-82 *)
  | G_Fragment =>
      (galt (GNode "Fragment::Ek" (gtuple [(g_with_free (GCall G_Ek))])) [
      (GNode "Fragment::Jek" (gtuple [(g_with_free (GCall G_Jek))]));
      (GNode "Fragment::Joik" (gtuple [(g_with_free (GCall G_Joik))]));
      (GNode "Fragment::Gihek" (gtuple [(g_with_free (GCall G_Gihek))]));
      (GNode "Fragment::Number" (gtuple [(GCall G_Quantifier)]));
      (GNode "Fragment::Na" (gtuple [(tok_single "Na" S_Na);
        (GNotThen (tok_single "Ja" S_Ja) (GCall G_Frees))]))])
  (* cst/rules/mod.rs:84-88 *)
  | G_Sentences1 =>
      (GNode "Sentences1" (gtuple [(GMany0 (GCall G_Prenex));
        (g_separated al_Sentences2 (GCall G_ConnectedSentenceSeparator))]))
  (* cst/rules/mod.rs:91-101 *)
  | G_Sentences3 =>
      (galt (GNode "Sentences3::Grouped" (gtuple [(GOpt al_TagWords);
        (g_with_free (tok_single "Tuhe" S_Tuhe));
        (GCall G_Paragraphs);
        (GOpt (tok_single "Tuhu" S_Tuhu));
        (GCall G_Frees)])) [
      (GNode "Sentences3::Single" (gtuple [(GCall G_Sentence)]))])
  (* cst/rules/mod.rs:103-107 *)
  | G_ParagraphSeparator =>
      (GNode "ParagraphSeparator" (gtuple [(GMany1 (tok_single "Niho" S_Niho));
        (GCall G_Frees)]))
  (* cst/rules/mod.rs:109-110 *)
  | G_SentenceSeparator =>
      (GNode "SentenceSeparator" (gtuple [(tok_single "I" S_I);
        (GNotThen (GCall G_Bu) (GCall G_Frees))]))
  (* cst/rules/mod.rs:112-117 *)
  | G_ConnectedSentenceSeparator =>
      (GNode "ConnectedSentenceSeparator" (gtuple [(tok_single "I" S_I);
        (GCall G_JoikJek);
        (GCall G_Frees)]))
  (* cst/rules/mod.rs:119-126 *)
  | G_CloseSentenceSeparator =>
      (GNode "CloseSentenceSeparator" (gtuple [(tok_single "I" S_I);
        (GOpt (GCall G_JoikJek));
        (GOpt al_TagWords);
        (tok_single "Bo" S_Bo);
        (GCall G_Frees)]))
  (* cst/rules/mod.rs:128-132 *)
  | G_Sentence =>
      (GNode "Sentence" (gtuple [(GCall G_Args);
        (GOpt (GCall G_SentenceTail))]))
  (* cst/rules/mod.rs:134-139 *)
  | G_SentenceTail =>
      (GNode "SentenceTail" (gtuple [(GOpt (tok_single "Cu" S_Cu));
        (GCall G_Frees);
        (GCall G_SentenceTail1)]))
  (* cst/rules/mod.rs:141-145 *)
  | G_SentenceTail1 =>
      (GNode "SentenceTail1" (gtuple [(GCall G_SentenceTail2);
        (GOpt (GCall G_SentenceTail1After))]))
  (* cst/rules/mod.rs:147-157 *)
  | G_SentenceTail1After =>
      (GNode "SentenceTail1After" (gtuple [(GCall G_Gihek);
        (GOpt al_TagWords);
        (tok_single "Ke" S_Ke);
        (GCall G_Frees);
        (GCall G_SentenceTail1);
        (GOpt (tok_single "Kehe" S_Kehe));
        (GCall G_Frees);
        (GCall G_TailArgs)]))
  (* cst/rules/mod.rs:159-163 *)
  | G_SentenceTail2 =>
      (GNode "SentenceTail2" (gtuple [(GCall G_SentenceTail3);
        (GOpt (GCall G_SentenceTail2After))]))
  (* cst/rules/mod.rs:165-170 *)
  | G_SentenceTail2Connective =>
      (GNode "SentenceTail2Connective" (gtuple [(GCall G_Gihek);
        (GNotThen (gtuple [(GOpt al_TagWords); (tok_single "Ke" S_Ke)]) (GCall G_Frees))]))
  (* cst/rules/mod.rs:172-176 *)
  | G_SentenceTail2After =>
      (GNode "SentenceTail2After" (gtuple [(GMany1 (gtuple [(GCall G_SentenceTail2Connective); (GCall G_SentenceTail3)]));
        (GCall G_TailArgs)]))
  (* cst/rules/mod.rs:178-182 *)
  | G_SentenceTail3 =>
      (GNode "SentenceTail3" (gtuple [(GCall G_SentenceTail4);
        (GOpt (GCall G_SentenceTail3After))]))
  (* cst/rules/mod.rs:191-195 *)
  | G_SentenceTail3After =>
      (GNode "SentenceTail3After" (gtuple [(GMany1 (gtuple [al_SentenceTail3Connective; (GCall G_SentenceTail4)]));
        (GCall G_TailArgs)]))
  (* cst/rules/mod.rs:197-209 *)
  | G_SentenceTail4 =>
      (galt (GNode "SentenceTail4::Single" (gtuple [(GCall G_Selbri);
        (GCall G_TailArgs)])) [
      (GNode "SentenceTail4::Parenthesized" (gtuple [(GMany0 (g_with_free (tok_single "Na" S_Na)));
        (GOpt al_TagWords);
        (g_with_free (tok_single "Ke" S_Ke));
        (GCall G_GekSentence);
        (GOpt (tok_single "Kehe" S_Kehe));
        (GCall G_Frees)]));
      (GNode "SentenceTail4::Connected" (gtuple [(GCall G_GekSentence)]))])
  (* cst/rules/mod.rs:211-219 *)
  | G_GekSentence =>
      (GNode "GekSentence" (gtuple [(GMany0 (g_with_free (tok_single "Na" S_Na)));
        (GCall G_Gek);
        (GCall G_Subsentence);
        (GCall G_Gik);
        (GCall G_Subsentence);
        (GCall G_TailArgs)]))
  (* cst/rules/mod.rs:221-226 *)
  | G_Subsentence =>
      (GNode "Subsentence" (gtuple [(GMany0 (GCall G_Prenex));
        (GCall G_Args);
        (GCall G_SentenceTail)]))
  (* cst/rules/mod.rs:228-230 *)
  | G_Args =>
      (gtuple [(GMany0 (GCall G_Arg))])
  (* cst/rules/mod.rs:232-234 *)
  | G_TailArgs =>
      (gtuple [(GCall G_Args);
        (GOpt (tok_single "Vau" S_Vau));
        (GCall G_Frees)])
  (* cst/rules/mod.rs:236-241 *)
  | G_Prenex =>
      (GNode "Prenex" (gtuple [(GCall G_Args);
        (tok_single "Zohu" S_Zohu);
        (GCall G_Frees)]))
  (* cst/rules/mod.rs:243-247 *)
  | G_Arg =>
      (GNode "Arg" (gtuple [al_Arg1;
        (GMany0 (g_sumti_like_connected_post al_Arg1 (GCall G_Arg)))]))
  (* cst/rules/mod.rs:251-252 *)
  | G_PeheConnective =>
      (GNode "PeheConnective" (gtuple [(g_with_free (tok_single "Pehe" S_Pehe));
        (GCall G_JoikJek)]))
  (* cst/rules/mod.rs:256-265 *)
  | G_Arg3 =>
      (galt (GNode "Arg3::Tag" (gtuple [(GCall G_Tag)])) [
      (GNode "Arg3::Sumti" (gtuple [(GOpt (g_with_free (tok_single "Fa" S_Fa)));
        (GCall G_Sumti)]));
      (GNode "Arg3::Naku" (gtuple [(tok_single "Na" S_Na);
        (tok_single "Ku" S_Ku);
        (GCall G_Frees)]));
      (GNode "Arg3::Termset" (gtuple [(GCall G_Termset)]))])
  (* cst/rules/mod.rs:267-287 *)
  | G_Termset =>
      (galt (GNode "Termset::Gek" (gtuple [(GCall G_Gek);
        (GCall G_Args);
        (GCall G_Gik);
        (GCall G_Args)])) [
      (GNode "Termset::NuhiGi" (gtuple [(g_with_free (tok_single "Nuhi" S_Nuhi));
        (GCall G_Gek);
        (GCall G_Args);
        (GOpt (tok_single "Nuhu" S_Nuhu));
        (GCall G_Frees);
        (GCall G_Gik);
        (GCall G_Args);
        (GOpt (tok_single "Nuhu" S_Nuhu));
        (GCall G_Frees)]));
      (GNode "Termset::Nuhi" (gtuple [(g_with_free (tok_single "Nuhi" S_Nuhi));
        (GCall G_Args);
        (GOpt (tok_single "Nuhu" S_Nuhu));
        (GCall G_Frees)]))])
  (* cst/rules/mod.rs:289-295 *)
  | G_Selbri =>
      (GNode "Selbri" (gtuple [(GMany0 (GCall G_SelbriBefore));
        (GCall G_Selbri1)]))
  (* cst/rules/mod.rs:297-301 *)
  | G_SelbriBefore =>
      (galt (GNode "SelbriBefore::Na" (gtuple [(g_with_free (tok_single "Na" S_Na))])) [
      (GNode "SelbriBefore::Tag" (gtuple [al_TagWords]))])
  (* cst/rules/mod.rs:303-305 *)
  | G_Selbri1 =>
      (GNode "Selbri1" (gtuple [(g_separated (GCall G_Selbri2) (g_with_free (tok_single "Co" S_Co)))]))
  (* cst/rules/mod.rs:307-309 *)
  | G_Selbri2 =>
      (GNode "Selbri2" (gtuple [(GMany1 (GCall G_Selbri3))]))
  (* cst/rules/mod.rs:311-315 *)
  | G_Selbri3 =>
      (GNode "Selbri3" (gtuple [(GCall G_Selbri4);
        (GMany0 al_Selbri3ConnectedPost)]))
  (* cst/rules/mod.rs:333-346 *)
  | G_Selbri4 =>
      (GNode "Selbri4" (gtuple [(g_separated (GCall G_Selbri5) (gtuple [(GCall G_JoikJek); (GOpt al_TagWords); (tok_single "Bo" S_Bo); (GCall G_Frees)]))]))
  (* cst/rules/mod.rs:348-352 *)
  | G_Selbri5 =>
      (GNode "Selbri5" (gtuple [(GMany0 (g_nahe_guhek_t_gik (GCall G_Selbri)));
        (GCall G_Selbri6)]))
  (* cst/rules/mod.rs:363-364 *)
  | G_Selbri6 =>
      (GNode "Selbri6" (gtuple [(g_separated (GCall G_TanruUnit) (g_with_free (tok_single "Bo" S_Bo)))]))
  (* cst/rules/mod.rs:366-370 *)
  | G_TanruUnit =>
      (GNode "TanruUnit" (gtuple [(g_separated (GCall G_TanruUnit1) (g_with_free (tok_single "Cei" S_Cei)))]))
  (* cst/rules/mod.rs:372-378 *)
  | G_TanruUnit1 =>
      (GNode "TanruUnit1" (gtuple [(GMany0 (GCall G_BeforeTanruUnit));
        (GCall G_TanruUnit2);
        (GOpt (GCall G_BoundArguments))]))
  (* cst/rules/mod.rs:380-388 *)
  | G_BeforeTanruUnit =>
      (galt (GNode "BeforeTanruUnit::Jai" (gtuple [(g_with_free (tok_single "Jai" S_Jai));
        (GOpt al_TagWords)])) [
      (GNode "BeforeTanruUnit::Nahe" (gtuple [(g_with_free (tok_single "Nahe" S_Nahe))]));
      (GNode "BeforeTanruUnit::Se" (gtuple [(g_with_free (tok_single "Se" S_Se))]))])
  (* cst/rules/mod.rs:390-396 *)
  | G_BoundArguments =>
      (GNode "BoundArguments" (gtuple [(g_with_free (tok_single "Be" S_Be));
        (g_separated (GCall G_Arg) (g_with_free (tok_single "Bei" S_Bei)));
        (GOpt (tok_single "Beho" S_Beho));
        (GCall G_Frees)]))
  (* cst/rules/mod.rs:398-433 *)
  | G_TanruUnit2 =>
      (galt (GNode "TanruUnit2::GroupedTanru" (gtuple [(g_with_free (tok_single "Ke" S_Ke));
        (GCall G_Selbri2);
        (GOpt (tok_single "Kehe" S_Kehe));
        (GCall G_Frees)])) [
      (GNode "TanruUnit2::Gismu" (gtuple [(g_with_free (tok_single "Gismu" S_Gismu))]));
      (GNode "TanruUnit2::Lujvo" (gtuple [(g_with_free (tok_single "Lujvo" S_Lujvo))]));
      (GNode "TanruUnit2::Fuhivla" (gtuple [(g_with_free (tok_single "Fuhivla" S_Fuhivla))]));
      (GNode "TanruUnit2::Zei" (gtuple [(g_with_free (GCall G_ZeiClause))]));
      (GNode "TanruUnit2::Goha" (gtuple [(tok_single "Goha" S_Goha);
        (GOpt (tok_single "Raho" S_Raho));
        (GCall G_Frees)]));
      (GNode "TanruUnit2::Moi" (gtuple [(GCall G_MiscNumbers);
        (tok_single "Moi" S_Moi);
        (GCall G_Frees)]));
      (GNode "TanruUnit2::Me" (gtuple [(g_with_free (tok_single "Me" S_Me));
        (GCall G_Sumti);
        (GOpt (tok_single "Mehu" S_Mehu));
        (GCall G_Frees);
        (GOpt (g_with_free (tok_single "Moi" S_Moi)))]));
      (GNode "TanruUnit2::Nu" (gtuple [(g_separated (gtuple [(tok_single "Nu" S_Nu); (GOpt (tok_single "Nai" S_Nai)); (GCall G_Frees)]) (GCall G_JoikJek));
        (GCall G_Subsentence);
        (GOpt (tok_single "Kei" S_Kei));
        (GCall G_Frees)]));
      (GNode "TanruUnit2::Nuha" (gtuple [(g_with_free (tok_single "Nuha" S_Nuha));
        (GCall G_Operator)]))])
  (* cst/rules/mod.rs:435-442 *)
  | G_ZeiClause =>
      (GNode "ZeiClause" (gtuple [(GMany0 (GCall G_Bahe));
        (GCall G_BuInner);
        (GMany0 (GCall G_ZeiBuInner));
        (GCall G_ZeiTail);
        (GNotThen (GCall G_Zei) (GNotThen (GCall G_Bu) (GOpt (GCall G_Indicators))))]))
  (* cst/rules/mod.rs:444-448 *)
  | G_ZeiBuInner =>
      (GNode "ZeiBuInner" (gtuple [(GOpt (GCall G_ZeiTail));
        (GMany1 (GCall G_Bu))]))
  (* cst/rules/mod.rs:450-451 *)
  | G_ZeiTail =>
      (GNode "ZeiTail" (gtuple [(GMany1 (gtuple [(GCall G_Zei); GAny]))]))
  (* cst/rules/mod.rs:463-469 *)
  | G_Tag =>
      (GNode "Tag" (gtuple [al_TagWords;
        (GNotThen (GCall G_Gik) (GNotThen (tok_single "Ke" S_Ke) (GOpt (GCall G_TagValue))))]))
  (* cst/rules/mod.rs:471-475 *)
  | G_TagValue =>
      (galt (GNode "TagValue::Ku" (gtuple [(g_with_free (tok_single "Ku" S_Ku))])) [
      (GNode "TagValue::Sumti" (gtuple [(GCall G_Sumti)]))])
  (* cst/rules/mod.rs:479-504 *)
  | G_TagWord =>
      (galt (GNode "TagWord::Bai" (gtuple [(GOpt (tok_single "Nahe" S_Nahe));
        (GOpt (tok_single "Se" S_Se));
        (tok_single "Bai" S_Bai);
        (GOpt (tok_single "Nai" S_Nai));
        (GOpt (tok_single "Ki" S_Ki));
        (GCall G_Frees)])) [
      (GNode "TagWord::TimeSpaceCaha" (gtuple [(GOpt (tok_single "Nahe" S_Nahe));
        (GMany1 (GCall G_TimeSpaceCaha));
        (GOpt (tok_single "Ki" S_Ki));
        (GCall G_Frees)]));
      (GNode "TagWord::Ki" (gtuple [(tok_single "Ki" S_Ki);
        (GCall G_Frees)]));
      (GNode "TagWord::Cuhe" (gtuple [(tok_single "Cuhe" S_Cuhe);
        (GCall G_Frees)]));
      (GNode "TagWord::Converted" (gtuple [(g_with_free (tok_single "Fiho" S_Fiho));
        (GCall G_Selbri);
        (GOpt (tok_single "Fehu" S_Fehu));
        (GCall G_Frees)]))])
  (* cst/rules/mod.rs:506-511 *)
  | G_TimeSpaceCaha =>
      (galt (GNode "TimeSpaceCaha::Time" (gtuple [(GCall G_Time)])) [
      (GNode "TimeSpaceCaha::Space" (gtuple [(GCall G_Space)]));
      (GNode "TimeSpaceCaha::Caha" (gtuple [(tok_single "Caha" S_Caha)]))])
  (* cst/rules/mod.rs:513-522 *)
  | G_Time =>
      (GPost PSomeField (GNode "Time" (gtuple [(GOpt (tok_single "Zi" S_Zi));
        (GMany0 (GCall G_TimeOffset));
        (GOpt (GCall G_TimeDuration));
        (GMany0 al_TimeIntervalProperty)])))
  (* cst/rules/mod.rs:524-529 *)
  | G_TimeOffset =>
      (GNode "TimeOffset" (gtuple [(tok_single "Pu" S_Pu);
        (GOpt (tok_single "Nai" S_Nai));
        (GOpt (tok_single "Zi" S_Zi))]))
  (* cst/rules/mod.rs:531-536 *)
  | G_TimeDuration =>
      (GNode "TimeDuration" (gtuple [(tok_single "Zeha" S_Zeha);
        (GOpt (gtuple [(tok_single "Pu" S_Pu); (GOpt (tok_single "Nai" S_Nai))]))]))
  (* cst/rules/mod.rs:538-543 *)
  | G_IntervalProperty =>
      (galt (GNode "IntervalProperty::Roi" (gtuple [(GCall G_Number);
        (tok_single "Roi" S_Roi);
        (GOpt (tok_single "Nai" S_Nai))])) [
      (GNode "IntervalProperty::Tahe" (gtuple [(tok_single "Tahe" S_Tahe);
        (GOpt (tok_single "Nai" S_Nai))]));
      (GNode "IntervalProperty::Zaho" (gtuple [(tok_single "Zaho" S_Zaho);
        (GOpt (tok_single "Nai" S_Nai))]))])
  (* cst/rules/mod.rs:547-555 *)
  | G_Space =>
      (GPost PSomeField (GNode "Space" (gtuple [(GOpt (tok_single "Va" S_Va));
        (GMany0 (GCall G_SpaceOffset));
        (GOpt (GCall G_SpaceInterval));
        (GOpt (GCall G_SpaceMotion))])))
  (* cst/rules/mod.rs:557-558 *)
  | G_SpaceOffset =>
      (GNode "SpaceOffset" (gtuple [(tok_single "Faha" S_Faha);
        (GOpt (tok_single "Nai" S_Nai));
        (GOpt (tok_single "Va" S_Va))]))
  (* cst/rules/mod.rs:560-569 *)
  | G_SpaceInterval =>
      (galt (GNode "SpaceInterval::Interval" (gtuple [(g_either_or_both (tok_single "Veha" S_Veha) (tok_single "Viha" S_Viha));
        (GOpt (gtuple [(tok_single "Faha" S_Faha); (GOpt (tok_single "Nai" S_Nai))]));
        (GMany0 (GCall G_SpaceIntervalProperty))])) [
      (GNode "SpaceInterval::Properties" (gtuple [(GMany1 (GCall G_SpaceIntervalProperty))]))])
  (* cst/rules/mod.rs:571-572 *)
  | G_SpaceIntervalProperty =>
      (GNode "SpaceIntervalProperty" (gtuple [(tok_single "Fehe" S_Fehe);
        (GCall G_IntervalProperty)]))
  (* cst/rules/mod.rs:574-578 *)
  | G_SpaceMotion =>
      (GNode "SpaceMotion" (gtuple [(tok_single "Mohi" S_Mohi);
        (GCall G_SpaceOffset)]))
  (* cst/rules/mod.rs:580-584 *)
  | G_Sumti =>
      (GNode "Sumti" (gtuple [(GCall G_Sumti1);
        (GOpt (GCall G_VuhoRelative))]))
  (* cst/rules/mod.rs:586-591 *)
  | G_Sumti1 =>
      (GNode "Sumti1" (gtuple [al_Sumti2;
        (GMany0 (g_sumti_like_connected_post al_Sumti2 (GCall G_Sumti)))]))
  (* cst/rules/mod.rs:617-621 *)
  | G_VuhoRelative =>
      (GNode "VuhoRelative" (gtuple [(g_with_free (tok_single "Vuho" S_Vuho));
        (GCall G_RelativeClauses)]))
  (* cst/rules/mod.rs:623-626 *)
  | G_RelativeClauses =>
      (GNode "RelativeClauses" (gtuple [(g_separated (GCall G_RelativeClause) (g_with_free (tok_single "Zihe" S_Zihe)))]))
  (* cst/rules/mod.rs:628-632 *)
  | G_RelativeClause =>
      (galt (GNode "RelativeClause::Goi" (gtuple [(GCall G_GoiRelativeClause)])) [
      (GNode "RelativeClause::Noi" (gtuple [(GCall G_NoiRelativeClause)]))])
  (* cst/rules/mod.rs:634-641 *)
  | G_GoiRelativeClause =>
      (GNode "GoiRelativeClause" (gtuple [(g_with_free (tok_single "Goi" S_Goi));
        (GCall G_Arg);
        (GOpt (tok_single "Gehu" S_Gehu));
        (GCall G_Frees)]))
  (* cst/rules/mod.rs:643-649 *)
  | G_NoiRelativeClause =>
      (GNode "NoiRelativeClause" (gtuple [(g_with_free (tok_single "Noi" S_Noi));
        (GCall G_Subsentence);
        (GOpt (tok_single "Kuho" S_Kuho));
        (GCall G_Frees)]))
  (* cst/rules/mod.rs:651-655 *)
  | G_Sumti3 =>
      (GNode "Sumti3" (gtuple [(GMany0 (GCall G_Sumti3ConnectedPre));
        (GCall G_Sumti4)]))
  (* cst/rules/mod.rs:657-658 *)
  | G_Sumti3ConnectedPre =>
      (GNode "Sumti3ConnectedPre" (gtuple [(GCall G_Gek);
        (GCall G_Sumti);
        (GCall G_Gik)]))
  (* cst/rules/mod.rs:660-674 *)
  | G_Sumti4 =>
      (galt (GNode "Sumti4::Normal" (gtuple [(GOpt (GCall G_Quantifier));
        al_SumtiComponent;
        (GOpt (GCall G_RelativeClauses))])) [
      (GNode "Sumti4::SelbriShorthand" (gtuple [(GCall G_Quantifier);
        (GCall G_Selbri);
        (GOpt (tok_single "Ku" S_Ku));
        (GCall G_Frees);
        (GOpt (GCall G_RelativeClauses))]))])
  (* cst/rules/mod.rs:676-689 *)
  | G_Quantifier =>
      (galt (GNode "Quantifier::Mekso" (gtuple [(g_with_free (tok_single "Vei" S_Vei));
        (GCall G_Expression);
        (GOpt (tok_single "Veho" S_Veho));
        (GCall G_Frees)])) [
      (GNode "Quantifier::Number" (gtuple [(GCall G_Number);
        (GNotThen (tok_single "Moi" S_Moi) (GOpt (tok_single "Boi" S_Boi)));
        (GCall G_Frees)]))])
  (* cst/rules/mod.rs:691-696 *)
  | G_Number =>
      (GNode "Number" (gtuple [(tok_single "Pa" S_Pa);
        (GMany0 (GCall G_NumberRest))]))
  (* cst/rules/mod.rs:698-702 *)
  | G_NumberRest =>
      (galt (GNode "NumberRest::Pa" (gtuple [(tok_single "Pa" S_Pa)])) [
      (GNode "NumberRest::Lerfu" (gtuple [(GCall G_LerfuWord)]))])
  (* cst/rules/mod.rs:704-709 *)
  | G_LerfuString =>
      (GNode "LerfuString" (gtuple [(GCall G_LerfuWord);
        (GMany0 (GCall G_NumberRest))]))
  (* cst/rules/mod.rs:711-712 *)
  | G_MiscNumbers =>
      (GNode "MiscNumbers" (gtuple [(GMany1 (GCall G_NumberRest))]))
  (* cst/rules/mod.rs:714-727 *)
  | G_LerfuWord =>
      (galt (GNode "LerfuWord::Lerfu" (gtuple [(GCall G_Lerfu)])) [
      (GNode "LerfuWord::Lau" (gtuple [(tok_single "Lau" S_Lau);
        (GCall G_Lerfu)]));
      (GNode "LerfuWord::Tei" (gtuple [(tok_single "Tei" S_Tei);
        (GCall G_LerfuString);
        (GCut (tok_single "Foi" S_Foi))]))])
  (* cst/rules/mod.rs:729-738 *)
  | G_Lerfu =>
      (galt (GNode "Lerfu::Bu" (gtuple [(GOpt (GCall G_Bahe));
        (GCall G_BuInner);
        (GMany1 (GCall G_Bu));
        (GMany0 (GCall G_Indicators))])) [
      (GNode "Lerfu::By" (gtuple [(tok_single "By" S_By)]))])
  (* cst/rules/mod.rs:740-744 *)
  | G_BuInner =>
      (GPost (PNotSel [S_Bu; S_Zei; S_Si; S_Su; S_Sa; S_Faho]) (GNode "BuInner" (gtuple [GAny])))
  (* cst/rules/mod.rs:748-767 *)
  | G_SumtiComponent1 =>
      (galt (GNode "SumtiComponent1::Koha" (gtuple [(tok_single "Koha" S_Koha)])) [
      (GNode "SumtiComponent1::Gadri" (gtuple [(GCall G_GadriSumti)]));
      (GNode "SumtiComponent1::La" (gtuple [(GCall G_LaSumti)]));
      (GNode "SumtiComponent1::Lohu" (gtuple [(GCall G_LohuSumti)]));
      (GNode "SumtiComponent1::Lu" (gtuple [(GCall G_LuSumti)]));
      (GNode "SumtiComponent1::Modified" (gtuple [(GCall G_ModifiedSumti)]));
      (GNode "SumtiComponent1::LerfuString" (gtuple [(GCall G_LerfuString);
        (GNotThen (tok_single "Moi" S_Moi) (GOpt (tok_single "Boi" S_Boi)))]));
      (GNode "SumtiComponent1::Zo" (gtuple [(GCall G_ZoSumti)]));
      (GNode "SumtiComponent1::Zoi" (gtuple [(GCall G_ZoiSumti)]));
      (GNode "SumtiComponent1::Li" (gtuple [(g_with_free (tok_single "Li" S_Li));
        (GCall G_Expression);
        (GOpt (tok_single "Loho" S_Loho))]))])
  (* cst/rules/mod.rs:769-774 *)
  | G_LohuSumti =>
      (GNode "LohuSumti" (gtuple [(tok_raw "Lohu" S_Lohu); GCut (GManyTill GAny (tok_single "Lehu" S_Lehu))]))
  (* cst/rules/mod.rs:795-800 *)
  | G_LuSumti =>
      (GNode "LuSumti" (gtuple [(tok_raw "Lu" S_Lu);
        (GCall G_Text);
        (GOpt (tok_single "Lihu" S_Lihu))]))
  (* cst/rules/mod.rs:802-808 *)
  | G_ModifiedSumti =>
      (GNode "ModifiedSumti" (gtuple [(g_with_free (GCall G_SumtiModifier));
        (GOpt (GCall G_RelativeClauses));
        (GCall G_Sumti);
        (GOpt (tok_single "Luhu" S_Luhu))]))
  (* cst/rules/mod.rs:810-814 *)
  | G_SumtiModifier =>
      (galt (GNode "SumtiModifier::Lahe" (gtuple [(tok_single "Lahe" S_Lahe)])) [
      (GNode "SumtiModifier::NaheBo" (gtuple [(tok_single "Nahe" S_Nahe);
        (tok_single "Bo" S_Bo)]))])
  (* cst/rules/mod.rs:816-822 *)
  | G_GadriSumti =>
      (GNode "GadriSumti" (gtuple [(g_with_free (GCall G_Gadri));
        (GCall G_GadriSumtiPre);
        (GCall G_GadriSumtiContents);
        (GOpt (tok_single "Ku" S_Ku))]))
  (* cst/rules/mod.rs:824-828 *)
  | G_Gadri =>
      (galt (GNode "Gadri::Le" (gtuple [(tok_single "Le" S_Le)])) [
      (GNode "Gadri::La" (gtuple [(tok_single "La" S_La)]))])
  (* cst/rules/mod.rs:830-844 *)
  | G_GadriSumtiPre =>
      (galt (gtuple [(GOpt al_SumtiComponent);
        (GOpt (GCall G_RelativeClauses))]) [
      (gtuple [(GCall G_RelativeClauses)]);
      (gtuple [(GCall G_Sumti)])])
  (* cst/rules/mod.rs:846-854 *)
  | G_GadriSumtiContents =>
      (galt (GNode "GadriSumtiContents::Selbri" (gtuple [(GOpt (GCall G_Quantifier));
        (GCall G_Selbri);
        (GOpt (GCall G_RelativeClauses))])) [
      (GNode "GadriSumtiContents::Sumti" (gtuple [(GCall G_Quantifier);
        (GCall G_Sumti)]))])
  (* cst/rules/mod.rs:856-861 *)
  | G_LaSumti =>
      (GNode "LaSumti" (gtuple [(tok_single "La" S_La);
        (GMany1 (tok_single "Cmevla" S_Cmevla))]))
  (* cst/rules/mod.rs:863-867 *)
  | G_ZoSumti =>
      (GNode "ZoSumti" (gtuple [(tok_raw "Zo" S_Zo);
        GAny]))
  (* cst/rules/mod.rs:869-875 *)
  | G_ZoiSumti =>
      (GNode "ZoiSumti" (gtuple [(tok_raw "Zoi" S_Zoi);
        (GCall G_ZoiDelimiter);
        (GCall G_ZoiText);
        (GCall G_ZoiDelimiter)]))
  (* cst/rules/mod.rs:877-879 *)
  | G_ZoiDelimiter =>
      (GSpan "ZoiDelimiter")
  (* cst/rules/mod.rs:901-902 *)
  | G_ZoiText =>
      (GSpan "ZoiText")
  (* cst/rules/mod.rs:924-941 *)
  | G_Free =>
      (galt (GNode "Free::Sei" (gtuple [(g_with_free (tok_single "Sei" S_Sei));
        (GCall G_Args);
        (GOpt (GCall G_SeiTail));
        (GOpt (g_with_free (tok_single "Sehu" S_Sehu)))])) [
      (GNode "Free::Soi" (gtuple [(g_with_free (tok_single "Soi" S_Soi));
        (gtuple [(GCall G_Sumti); (GOpt (GCall G_Sumti))]);
        (GOpt (tok_single "Sehu" S_Sehu))]));
      (GNode "Free::Vocative" (gtuple [(GCall G_Vocative)]));
      (GNode "Free::Mai" (gtuple [(GCall G_MiscNumbers);
        (tok_single "Mai" S_Mai)]));
      (GNode "Free::To" (gtuple [(tok_single "To" S_To);
        (GCall G_Text);
        (GOpt (tok_single "Toi" S_Toi))]));
      (GNode "Free::Xi" (gtuple [(GCall G_Subscript)]))])
  (* cst/rules/mod.rs:943-950 *)
  | G_Vocative =>
      (GNode "Vocative" (gtuple [(GCall G_VocativeWords);
        (GOpt (GCall G_RelativeClauses));
        (GCall G_VocativeValue);
        (GOpt (GCall G_RelativeClauses));
        (GOpt (tok_single "Dohu" S_Dohu))]))
  (* cst/rules/mod.rs:952-957 *)
  | G_SeiTail =>
      (GNode "SeiTail" (gtuple [(GOpt (tok_single "Cu" S_Cu));
        (GCall G_Frees);
        (GCall G_Selbri)]))
  (* cst/rules/mod.rs:959-966 *)
  | G_VocativeWords =>
      (galt (GNode "VocativeWords::Coi" (gtuple [(GMany1 (gtuple [(tok_single "Coi" S_Coi); (GOpt (tok_single "Nai" S_Nai))]));
        (GOpt (tok_single "Doi" S_Doi))])) [
      (GNode "VocativeWords::Doi" (gtuple [(tok_single "Doi" S_Doi)]))])
  (* cst/rules/mod.rs:968-973 *)
  | G_VocativeValue =>
      (galt (GNode "VocativeValue::Selbri" (gtuple [(GCall G_Selbri)])) [
      (GNode "VocativeValue::Cmevla" (gtuple [(GMany1 (tok_single "Cmevla" S_Cmevla))]));
      (GNode "VocativeValue::Sumti" (gtuple [(GOpt (GCall G_Sumti))]))])
  (* cst/rules/mod.rs:975-979 *)
  | G_Subscript =>
      (GNode "Subscript" (gtuple [(g_with_free (tok_single "Xi" S_Xi));
        (g_with_free (GCall G_SubscriptValue))]))
  (* cst/rules/mod.rs:981-994 *)
  | G_SubscriptValue =>
      (galt (GNode "SubscriptValue::Mekso" (gtuple [(g_with_free (tok_single "Vei" S_Vei));
        (GCall G_Expression);
        (GOpt (tok_single "Veho" S_Veho));
        (GCall G_Frees)])) [
      (GNode "SubscriptValue::Number" (gtuple [(GCall G_MiscNumbers);
        (GNotThen (tok_single "Moi" S_Moi) (GOpt (tok_single "Boi" S_Boi)));
        (GCall G_Frees)]))])
  (* cst/rules/mod.rs:996-1000 *)
  | G_Indicators =>
      (GNode "Indicators" (gtuple [(GOpt (tok_no_indicators "Fuhe" S_Fuhe));
        (GMany1 (GCall G_Indicator))]))
  (* cst/rules/mod.rs:1002-1011 *)
  | G_Indicator =>
      (GNotAfter (galt (GNode "Indicator::Ui" (gtuple [(tok_single "Ui" S_Ui)])) [
      (GNode "Indicator::Cai" (gtuple [(tok_single "Cai" S_Cai)]));
      (GNode "Indicator::Nai" (gtuple [(tok_single "Nai" S_Nai)]));
      (GNode "Indicator::Daho" (gtuple [(tok_single "Daho" S_Daho)]));
      (GNode "Indicator::Fuho" (gtuple [(tok_single "Fuho" S_Fuho)]));
      (GNode "Indicator::Y" (gtuple [(tok_single "Y" S_Y)]))]) (GCall G_Bu))
  (* cst/rules/connectives.rs:25-31 *)
  | G_Guhek =>
      (GNode "Guhek" (gtuple [(GOpt (tok_single "Se" S_Se));
        (tok_single "Guha" S_Guha);
        (GOpt (tok_single "Nai" S_Nai));
        (GCall G_Frees)]))
  (* cst/rules/connectives.rs:33-38 *)
  | G_Interval =>
      (GNode "Interval" (gtuple [(GOpt (tok_single "Se" S_Se));
        (tok_single "Bihi" S_Bihi);
        (GOpt (tok_single "Nai" S_Nai))]))
  (* cst/rules/connectives.rs:40-45 *)
  | G_Joik =>
      (galt (GNode "Joik::SeJoiNai" (gtuple [(GOpt (tok_single "Se" S_Se));
        (tok_single "Joi" S_Joi);
        (GOpt (tok_single "Nai" S_Nai))])) [
      (GNode "Joik::Interval" (gtuple [(GCall G_Interval)]));
      (GNode "Joik::Gaho" (gtuple [(tok_single "Gaho" S_Gaho);
        (GCall G_Interval);
        (GCut (tok_single "Gaho" S_Gaho))]))])
  (* cst/rules/connectives.rs:47-48 *)
  | G_Gik =>
      (GNode "Gik" (gtuple [(tok_single "Gi" S_Gi);
        (GOpt (tok_single "Nai" S_Nai));
        (GCall G_Frees)]))
  (* cst/rules/connectives.rs:50-60 *)
  | G_Gek =>
      (galt (GNode "Gek::SeGaNai" (gtuple [(GOpt (tok_single "Se" S_Se));
        (tok_single "Ga" S_Ga);
        (GOpt (tok_single "Nai" S_Nai));
        (GCall G_Frees)])) [
      (GNode "Gek::JoikGi" (gtuple [(GCall G_Joik);
        (tok_single "Gi" S_Gi);
        (GCall G_Frees)]));
      (GNode "Gek::TagGik" (gtuple [al_TagWords;
        (GCall G_Gik)]))])
  (* cst/rules/connectives.rs:62-66 *)
  | G_JoikJek =>
      (galt (GNode "JoikJek::Joik" (gtuple [(GCall G_Joik)])) [
      (GNode "JoikJek::Jek" (gtuple [(GCall G_Jek)]))])
  (* cst/rules/connectives.rs:68-72 *)
  | G_JoikEk =>
      (galt (GNode "JoikEk::Joik" (gtuple [(GCall G_Joik);
        (GCall G_Frees)])) [
      (GNode "JoikEk::Ek" (gtuple [(GCall G_Ek);
        (GCall G_Frees)]))])
  (* cst/rules/mekso.rs:11-21 *)
  | G_Expression =>
      (galt (GNode "Expression::ReversePolish" (gtuple [(g_with_free (tok_single "Fuha" S_Fuha));
        (GCall G_ReversePolish)])) [
      (GNode "Expression::Normal" (gtuple [(g_separated (g_separated (GCall G_Expression1) (gtuple [(g_with_free (tok_single "Bihe" S_Bihe)); (GCall G_Operator)])) (GCall G_Operator))]))])
  (* cst/rules/mekso.rs:24-28 *)
  | G_ReversePolish =>
      (GNode "ReversePolish" (gtuple [(GCall G_Operand);
        (GMany0 (GCall G_RPTail))]))
  (* cst/rules/mekso.rs:30-31 *)
  | G_RPTail =>
      (GNode "RPTail" (gtuple [(GCall G_ReversePolish);
        (GCall G_Operator)]))
  (* cst/rules/mekso.rs:33-37 *)
  | G_Expression1 =>
      (galt (GNode "Expression1::Operand" (gtuple [(GCall G_Operand)])) [
      (GNode "Expression1::Forethought" (gtuple [(GCall G_ForethoughtExpression)]))])
  (* cst/rules/mekso.rs:39-47 *)
  | G_ForethoughtExpression =>
      (GNode "ForethoughtExpression" (gtuple [(GOpt (g_with_free (tok_single "Peho" S_Peho)));
        (GCall G_Operator);
        (GMany1 (GCall G_Expression1));
        (GOpt (tok_single "Kuhe" S_Kuhe));
        (GCall G_Frees)]))
  (* cst/rules/mekso.rs:49-53 *)
  | G_Operand =>
      (GNode "Operand" (gtuple [(GCall G_Operand1);
        (GMany0 al_ConnectedOperand)]))
  (* cst/rules/mekso.rs:58-69 *)
  | G_Operand1 =>
      (GNode "Operand1" (gtuple [(g_separated (GCall G_Operand2) (gtuple [(GCall G_JoikEk); (GOpt al_TagWords); (g_with_free (tok_single "Bo" S_Bo))]))]))
  (* cst/rules/mekso.rs:71-75 *)
  | G_Operand2 =>
      (GNode "Operand2" (gtuple [(GMany0 (GCall G_Operand2ConnectedPre));
        (GCall G_Operand3)]))
  (* cst/rules/mekso.rs:77-78 *)
  | G_Operand2ConnectedPre =>
      (GNode "Operand2ConnectedPre" (gtuple [(GCall G_Gek);
        (GCall G_Operand);
        (GCall G_Gik)]))
  (* cst/rules/mekso.rs:80-116 *)
  | G_Operand3 =>
      (galt (GNode "Operand3::Nihe" (gtuple [(g_with_free (tok_single "Nihe" S_Nihe));
        (GCall G_Selbri);
        (GOpt (tok_single "Tehu" S_Tehu));
        (GCall G_Frees)])) [
      (GNode "Operand3::Mohe" (gtuple [(g_with_free (tok_single "Mohe" S_Mohe));
        (GCall G_Sumti);
        (GOpt (tok_single "Tehu" S_Tehu));
        (GCall G_Frees)]));
      (GNode "Operand3::Johi" (gtuple [(g_with_free (tok_single "Johi" S_Johi));
        (GMany1 (GCall G_Expression1));
        (GOpt (tok_single "Tehu" S_Tehu));
        (GCall G_Frees)]));
      (GNode "Operand3::Modified" (gtuple [al_OperandModifier;
        (GCall G_Operand);
        (GOpt (tok_single "Luhu" S_Luhu))]));
      (GNode "Operand3::Parenthesized" (gtuple [(g_with_free (tok_single "Vei" S_Vei));
        (GCall G_Expression);
        (GOpt (tok_single "Veho" S_Veho));
        (GCall G_Frees)]));
      (GNode "Operand3::Number" (gtuple [(GCall G_MiscNumbers);
        (GNotThen (tok_single "Moi" S_Moi) (GOpt (tok_single "Boi" S_Boi)));
        (GCall G_Frees)]))])
  (* cst/rules/mekso.rs:120-124 *)
  | G_Operator =>
      (GNode "Operator" (gtuple [(GCall G_Operator1);
        (GMany0 al_ConnectedOperator)]))
  (* cst/rules/mekso.rs:129-133 *)
  | G_Operator1 =>
      (GNode "Operator1" (gtuple [(GMany0 (g_nahe_guhek_t_gik (GCall G_Operator1)));
        (GCall G_Operator2)]))
  (* cst/rules/mekso.rs:135-146 *)
  | G_Operator2 =>
      (GNode "Operator2" (gtuple [(g_separated (GCall G_Operator3) (gtuple [(GCall G_JoikJek); (GOpt al_TagWords); (g_with_free (tok_single "Bo" S_Bo))]))]))
  (* cst/rules/mekso.rs:148-157 *)
  | G_Operator3 =>
      (galt (GNode "Operator3::Simple" (gtuple [(GCall G_OperatorComponent)])) [
      (GNode "Operator3::Grouped" (gtuple [(g_with_free (tok_single "Ke" S_Ke));
        (GCall G_Operator);
        (tok_single "Kehe" S_Kehe);
        (GCall G_Frees)]))])
  (* cst/rules/mekso.rs:159-163 *)
  | G_OperatorComponent =>
      (GNode "OperatorComponent" (gtuple [(GMany0 (GCall G_OperatorComponentPre));
        (GCall G_OperatorComponent1)]))
  (* cst/rules/mekso.rs:165-169 *)
  | G_OperatorComponentPre =>
      (galt (GNode "OperatorComponentPre::Nahe" (gtuple [(g_with_free (tok_single "Nahe" S_Nahe))])) [
      (GNode "OperatorComponentPre::Se" (gtuple [(g_with_free (tok_single "Se" S_Se))]))])
  (* cst/rules/mekso.rs:171-186 *)
  | G_OperatorComponent1 =>
      (galt (GNode "OperatorComponent1::Maho" (gtuple [(g_with_free (tok_single "Maho" S_Maho));
        (GCall G_Expression);
        (GOpt (tok_single "Tehu" S_Tehu));
        (GCall G_Frees)])) [
      (GNode "OperatorComponent1::Nahu" (gtuple [(g_with_free (tok_single "Nahu" S_Nahu));
        (GCall G_Selbri);
        (GOpt (tok_single "Tehu" S_Tehu));
        (GCall G_Frees)]));
      (GNode "OperatorComponent1::Vuhu" (gtuple [(g_with_free (tok_single "Vuhu" S_Vuhu))]))])
  (* cst/rules/connectives.rs:13-23 *)
  | G_Ek =>
      (GNode "Ek" (gtuple [(g_na_se_t_nai (tok_single "A" S_A))]))
  (* cst/rules/connectives.rs:13-23 *)
  | G_Jek =>
      (GNode "Jek" (gtuple [(g_na_se_t_nai (tok_single "Ja" S_Ja))]))
  (* cst/rules/connectives.rs:13-23 *)
  | G_Gihek =>
      (GNode "Gihek" (gtuple [(g_na_se_t_nai (tok_single "Giha" S_Giha))]))
  end.

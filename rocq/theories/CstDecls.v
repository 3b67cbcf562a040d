(** CstDecls.v -- the declarations of /repo/src/parse/cst/rules/*.rs as data: each
    struct and enum deriving [Parse], with its type parameters, fields, types and
    [#[parse(..)]], [#[cut]], [#[tree_node(..)]] attributes, as in the source
    (lifetimes and field names dropped); the type aliases and [use .. as ..]; the
    token types.  And [impl]: what [T::parse] is for each type, by the trait impls
    of the crate.  No proofs in this file. *)
From Verif Require Import Base Span Selmaho Lex Cst Derive.
Local Open Scope string_scope.
Local Open Scope list_scope.

Definition nm (n : string) : ty := TyName n [].
Definition fd (t : ty) : field := mkfield t [].

(** cst/rules/mod.rs:25-30 *)
Definition d_WithFree : decl :=
  mkdecl "WithFree" ["Inner"] TKPass []
    (DStruct (Named [fd (nm "Inner");
    fd (nm "Frees")])).

(** cst/rules/mod.rs:32-34 *)
Definition d_Frees : decl :=
  mkdecl "Frees" [] TKPass []
    (DStruct (Unnamed [mkfield (TyRef (TySlice (nm "Free"))) [AWith "many0"]])).

(** cst/rules/mod.rs:38-45 *)
Definition d_Text : decl :=
  mkdecl "Text" [] TKNode []
    (DStruct (Named [fd (TyOption (nm "Indicators"));
    fd (nm "Frees");
    fd (TyOption (nm "ParagraphSeparator"));
    fd (TyOption (nm "Paragraphs"));
    fd (TyOption (nm "Faho"))])).

(** cst/rules/mod.rs:47-48 *)
Definition d_Paragraphs : decl :=
  mkdecl "Paragraphs" [] TKNode []
    (DStruct (Unnamed [fd (TyName "Separated" [(nm "Paragraph"); (nm "ParagraphSeparator")])])).

(** cst/rules/mod.rs:50-54 *)
Definition d_Paragraph : decl :=
  mkdecl "Paragraph" [] TKNode []
    (DStruct (Named [fd (TyOption (nm "SentenceSeparator"));
    fd (nm "ParagraphItems")])).

(** cst/rules/mod.rs:59-65 *)
Definition d_ParagraphItem : decl :=
  mkdecl "ParagraphItem" [] TKNode []
    (DEnum [
    mkvariant "Sentences" [ANonEmpty] (Unnamed [fd (nm "Sentences1")]);
    mkvariant "Fragment" [] (Unnamed [fd (TyRef (nm "Fragment"))]);
    mkvariant "Empty" [] (Unnamed [])]).

(** cst/rules/mod.rs:67-82 *)
Definition d_Fragment : decl :=
  mkdecl "Fragment" [] TKNode []
    (DEnum [
    mkvariant "Ek" [] (Unnamed [fd (TyName "WithFree" [(nm "Ek")])]);
    mkvariant "Jek" [] (Unnamed [fd (TyName "WithFree" [(nm "Jek")])]);
    mkvariant "Joik" [] (Unnamed [fd (TyName "WithFree" [(nm "Joik")])]);
    mkvariant "Gihek" [] (Unnamed [fd (TyName "WithFree" [(nm "Gihek")])]);
    mkvariant "Number" [] (Unnamed [fd (nm "Quantifier")]);
    mkvariant "Na" [] (Unnamed [fd (nm "Na");
      mkfield (nm "Frees") [ANot (nm "Ja")]])]).

(** cst/rules/mod.rs:84-88 *)
Definition d_Sentences1 : decl :=
  mkdecl "Sentences1" [] TKNode []
    (DStruct (Unnamed [mkfield (TyRef (TySlice (nm "Prenex"))) [AWith "many0"];
    fd (TyName "Separated" [(nm "Sentences2"); (nm "ConnectedSentenceSeparator")])])).

(** cst/rules/mod.rs:91-101 *)
Definition d_Sentences3 : decl :=
  mkdecl "Sentences3" [] TKNode []
    (DEnum [
    mkvariant "Grouped" [] (Unnamed [fd (TyOption (nm "TagWords"));
      fd (TyName "WithFree" [(nm "Tuhe")]);
      fd (nm "Paragraphs");
      fd (TyOption (nm "Tuhu"));
      fd (nm "Frees")]);
    mkvariant "Single" [] (Unnamed [fd (TyRef (nm "Sentence"))])]).

(** cst/rules/mod.rs:103-107 *)
Definition d_ParagraphSeparator : decl :=
  mkdecl "ParagraphSeparator" [] TKNode []
    (DStruct (Unnamed [mkfield (TyRef (TySlice (nm "Niho"))) [AWith "many1"];
    fd (nm "Frees")])).

(** cst/rules/mod.rs:109-110 *)
Definition d_SentenceSeparator : decl :=
  mkdecl "SentenceSeparator" [] TKNode []
    (DStruct (Unnamed [fd (nm "I");
    mkfield (nm "Frees") [ANot (nm "Bu")]])).

(** cst/rules/mod.rs:112-117 *)
Definition d_ConnectedSentenceSeparator : decl :=
  mkdecl "ConnectedSentenceSeparator" [] TKNode []
    (DStruct (Unnamed [fd (nm "I");
    fd (nm "JoikJek");
    fd (nm "Frees")])).

(** cst/rules/mod.rs:119-126 *)
Definition d_CloseSentenceSeparator : decl :=
  mkdecl "CloseSentenceSeparator" [] TKNode []
    (DStruct (Unnamed [fd (nm "I");
    fd (TyOption (nm "JoikJek"));
    fd (TyOption (nm "TagWords"));
    fd (nm "Bo");
    fd (nm "Frees")])).

(** cst/rules/mod.rs:128-132 *)
Definition d_Sentence : decl :=
  mkdecl "Sentence" [] TKNode []
    (DStruct (Named [fd (nm "Args");
    fd (TyOption (nm "SentenceTail"))])).

(** cst/rules/mod.rs:134-139 *)
Definition d_SentenceTail : decl :=
  mkdecl "SentenceTail" [] TKNode []
    (DStruct (Unnamed [fd (TyOption (nm "Cu"));
    fd (nm "Frees");
    fd (nm "SentenceTail1")])).

(** cst/rules/mod.rs:141-145 *)
Definition d_SentenceTail1 : decl :=
  mkdecl "SentenceTail1" [] TKNode []
    (DStruct (Unnamed [fd (nm "SentenceTail2");
    fd (TyOption (nm "SentenceTail1After"))])).

(** cst/rules/mod.rs:147-157 *)
Definition d_SentenceTail1After : decl :=
  mkdecl "SentenceTail1After" [] TKNode []
    (DStruct (Unnamed [fd (nm "Gihek");
    fd (TyOption (nm "TagWords"));
    fd (nm "Ke");
    fd (nm "Frees");
    fd (TyRef (nm "SentenceTail1"));
    fd (TyOption (nm "Kehe"));
    fd (nm "Frees");
    fd (nm "TailArgs")])).

(** cst/rules/mod.rs:159-163 *)
Definition d_SentenceTail2 : decl :=
  mkdecl "SentenceTail2" [] TKNode []
    (DStruct (Unnamed [fd (TyRef (nm "SentenceTail3"));
    fd (TyOption (nm "SentenceTail2After"))])).

(** cst/rules/mod.rs:165-170 *)
Definition d_SentenceTail2Connective : decl :=
  mkdecl "SentenceTail2Connective" [] TKNode []
    (DStruct (Unnamed [fd (nm "Gihek");
    mkfield (nm "Frees") [ANot (TyTuple [(TyOption (nm "TagWords")); (nm "Ke")])]])).

(** cst/rules/mod.rs:172-176 *)
Definition d_SentenceTail2After : decl :=
  mkdecl "SentenceTail2After" [] TKNode []
    (DStruct (Unnamed [mkfield (TyRef (TySlice (TyTuple [(nm "SentenceTail2Connective"); (nm "SentenceTail3")]))) [AWith "many1"];
    fd (nm "TailArgs")])).

(** cst/rules/mod.rs:178-182 *)
Definition d_SentenceTail3 : decl :=
  mkdecl "SentenceTail3" [] TKNode []
    (DStruct (Unnamed [fd (TyRef (nm "SentenceTail4"));
    fd (TyOption (nm "SentenceTail3After"))])).

(** cst/rules/mod.rs:191-195 *)
Definition d_SentenceTail3After : decl :=
  mkdecl "SentenceTail3After" [] TKNode []
    (DStruct (Unnamed [mkfield (TyRef (TySlice (TyTuple [(nm "SentenceTail3Connective"); (nm "SentenceTail4")]))) [AWith "many1"];
    fd (nm "TailArgs")])).

(** cst/rules/mod.rs:197-209 *)
Definition d_SentenceTail4 : decl :=
  mkdecl "SentenceTail4" [] TKNode []
    (DEnum [
    mkvariant "Single" [] (Unnamed [fd (nm "Selbri");
      fd (nm "TailArgs")]);
    mkvariant "Parenthesized" [] (Unnamed [mkfield (TyRef (TySlice (TyName "WithFree" [(nm "Na")]))) [AWith "many0"];
      fd (TyOption (nm "TagWords"));
      fd (TyName "WithFree" [(nm "Ke")]);
      fd (TyRef (nm "GekSentence"));
      fd (TyOption (nm "Kehe"));
      fd (nm "Frees")]);
    mkvariant "Connected" [] (Unnamed [fd (TyRef (nm "GekSentence"))])]).

(** cst/rules/mod.rs:211-219 *)
Definition d_GekSentence : decl :=
  mkdecl "GekSentence" [] TKNode []
    (DStruct (Unnamed [mkfield (TyRef (TySlice (TyName "WithFree" [(nm "Na")]))) [AWith "many0"];
    fd (nm "Gek");
    fd (nm "Subsentence");
    fd (nm "Gik");
    fd (nm "Subsentence");
    fd (nm "TailArgs")])).

(** cst/rules/mod.rs:221-226 *)
Definition d_Subsentence : decl :=
  mkdecl "Subsentence" [] TKNode []
    (DStruct (Unnamed [mkfield (TyRef (TySlice (nm "Prenex"))) [AWith "many0"];
    fd (nm "Args");
    fd (nm "SentenceTail")])).

(** cst/rules/mod.rs:228-230 *)
Definition d_Args : decl :=
  mkdecl "Args" [] TKPass []
    (DStruct (Unnamed [mkfield (TyRef (TySlice (nm "Arg"))) [AWith "many0"]])).

(** cst/rules/mod.rs:232-234 *)
Definition d_TailArgs : decl :=
  mkdecl "TailArgs" [] TKPass []
    (DStruct (Unnamed [fd (nm "Args");
    fd (TyOption (nm "Vau"));
    fd (nm "Frees")])).

(** cst/rules/mod.rs:236-241 *)
Definition d_Prenex : decl :=
  mkdecl "Prenex" [] TKNode []
    (DStruct (Named [fd (nm "Args");
    fd (nm "Zohu");
    fd (nm "Frees")])).

(** cst/rules/mod.rs:243-247 *)
Definition d_Arg : decl :=
  mkdecl "Arg" [] TKNode []
    (DStruct (Unnamed [fd (nm "Arg1");
    mkfield (TyRef (TySlice (TyName "SumtiLikeConnectedPost" [(nm "Arg1"); (nm "Self")]))) [AWith "many0"]])).

(** cst/rules/mod.rs:251-252 *)
Definition d_PeheConnective : decl :=
  mkdecl "PeheConnective" [] TKNode []
    (DStruct (Unnamed [fd (TyName "WithFree" [(nm "Pehe")]);
    fd (nm "JoikJek")])).

(** cst/rules/mod.rs:256-265 *)
Definition d_Arg3 : decl :=
  mkdecl "Arg3" [] TKNode []
    (DEnum [
    mkvariant "Tag" [] (Unnamed [fd (nm "Tag")]);
    mkvariant "Sumti" [] (Named [fd (TyOption (TyName "WithFree" [(nm "Fa")]));
      fd (nm "Sumti")]);
    mkvariant "Naku" [] (Unnamed [fd (nm "Na");
      fd (nm "Ku");
      fd (nm "Frees")]);
    mkvariant "Termset" [] (Unnamed [fd (TyRef (nm "Termset"))])]).

(** cst/rules/mod.rs:267-287 *)
Definition d_Termset : decl :=
  mkdecl "Termset" [] TKNode []
    (DEnum [
    mkvariant "Gek" [] (Unnamed [fd (nm "Gek");
      fd (nm "Args");
      fd (nm "Gik");
      fd (nm "Args")]);
    mkvariant "NuhiGi" [] (Unnamed [fd (TyName "WithFree" [(nm "Nuhi")]);
      fd (nm "Gek");
      fd (nm "Args");
      fd (TyOption (nm "Nuhu"));
      fd (nm "Frees");
      fd (nm "Gik");
      fd (nm "Args");
      fd (TyOption (nm "Nuhu"));
      fd (nm "Frees")]);
    mkvariant "Nuhi" [] (Unnamed [fd (TyName "WithFree" [(nm "Nuhi")]);
      fd (nm "Args");
      fd (TyOption (nm "Nuhu"));
      fd (nm "Frees")])]).

(** cst/rules/mod.rs:289-295 *)
Definition d_Selbri : decl :=
  mkdecl "Selbri" [] TKNode []
    (DStruct (Named [mkfield (TyRef (TySlice (nm "SelbriBefore"))) [AWith "many0"];
    fd (nm "Selbri1")])).

(** cst/rules/mod.rs:297-301 *)
Definition d_SelbriBefore : decl :=
  mkdecl "SelbriBefore" [] TKNode []
    (DEnum [
    mkvariant "Na" [] (Unnamed [fd (TyName "WithFree" [(nm "Na")])]);
    mkvariant "Tag" [] (Unnamed [fd (nm "TagWords")])]).

(** cst/rules/mod.rs:303-305 *)
Definition d_Selbri1 : decl :=
  mkdecl "Selbri1" [] TKNode []
    (DStruct (Unnamed [fd (TyName "Separated" [(nm "Selbri2"); (TyName "WithFree" [(nm "Co")])])])).

(** cst/rules/mod.rs:307-309 *)
Definition d_Selbri2 : decl :=
  mkdecl "Selbri2" [] TKNode []
    (DStruct (Unnamed [mkfield (TyRef (TySlice (nm "Selbri3"))) [AWith "many1"]])).

(** cst/rules/mod.rs:311-315 *)
Definition d_Selbri3 : decl :=
  mkdecl "Selbri3" [] TKNode []
    (DStruct (Unnamed [fd (nm "Selbri4");
    mkfield (TyRef (TySlice (nm "Selbri3ConnectedPost"))) [AWith "many0"]])).

(** cst/rules/mod.rs:320-331 *)
Definition d_SelbriLikeConnectedPost : decl :=
  mkdecl "SelbriLikeConnectedPost" ["Normal"; "Parenthesized"] TKNode []
    (DEnum [
    mkvariant "Normal" [] (Unnamed [fd (nm "JoikJek");
      fd (nm "Normal")]);
    mkvariant "Parenthesized" [] (Unnamed [fd (nm "JoikJek");
      fd (TyOption (nm "TagWords"));
      fd (TyName "WithFree" [(nm "Ke")]);
      fd (nm "Parenthesized");
      fd (TyOption (nm "Kehe"));
      fd (nm "Frees")])]).

(** cst/rules/mod.rs:333-346 *)
Definition d_Selbri4 : decl :=
  mkdecl "Selbri4" [] TKNode []
    (DStruct (Unnamed [fd (TyName "Separated" [(nm "Selbri5"); (TyTuple [(nm "JoikJek"); (TyOption (nm "TagWords")); (nm "Bo"); (nm "Frees")])])])).

(** cst/rules/mod.rs:348-352 *)
Definition d_Selbri5 : decl :=
  mkdecl "Selbri5" [] TKNode []
    (DStruct (Unnamed [mkfield (TyRef (TySlice (TyName "NaheGuhekTGik" [(nm "Selbri")]))) [AWith "many0"];
    fd (nm "Selbri6")])).

(** cst/rules/mod.rs:354-361 *)
Definition d_NaheGuhekTGik : decl :=
  mkdecl "NaheGuhekTGik" ["T"] TKNode []
    (DStruct (Unnamed [fd (TyOption (nm "Nahe"));
    fd (nm "Frees");
    fd (nm "Guhek");
    fd (nm "T");
    fd (nm "Gik")])).

(** cst/rules/mod.rs:363-364 *)
Definition d_Selbri6 : decl :=
  mkdecl "Selbri6" [] TKNode []
    (DStruct (Unnamed [fd (TyName "Separated" [(nm "TanruUnit"); (TyName "WithFree" [(nm "Bo")])])])).

(** cst/rules/mod.rs:366-370 *)
Definition d_TanruUnit : decl :=
  mkdecl "TanruUnit" [] TKNode []
    (DStruct (Unnamed [fd (TyName "Separated" [(nm "TanruUnit1"); (TyName "WithFree" [(nm "Cei")])])])).

(** cst/rules/mod.rs:372-378 *)
Definition d_TanruUnit1 : decl :=
  mkdecl "TanruUnit1" [] TKNode []
    (DStruct (Named [mkfield (TyRef (TySlice (nm "BeforeTanruUnit"))) [AWith "many0"];
    fd (nm "TanruUnit2");
    fd (TyOption (nm "BoundArguments"))])).

(** cst/rules/mod.rs:380-388 *)
Definition d_BeforeTanruUnit : decl :=
  mkdecl "BeforeTanruUnit" [] TKNode []
    (DEnum [
    mkvariant "Jai" [] (Named [fd (TyName "WithFree" [(nm "Jai")]);
      fd (TyOption (nm "TagWords"))]);
    mkvariant "Nahe" [] (Unnamed [fd (TyName "WithFree" [(nm "Nahe")])]);
    mkvariant "Se" [] (Unnamed [fd (TyName "WithFree" [(nm "Se")])])]).

(** cst/rules/mod.rs:390-396 *)
Definition d_BoundArguments : decl :=
  mkdecl "BoundArguments" [] TKNode []
    (DStruct (Named [fd (TyName "WithFree" [(nm "Be")]);
    fd (TyName "Separated" [(nm "Arg"); (TyName "WithFree" [(nm "Bei")])]);
    fd (TyOption (nm "Beho"));
    fd (nm "Frees")])).

(** cst/rules/mod.rs:398-433 *)
Definition d_TanruUnit2 : decl :=
  mkdecl "TanruUnit2" [] TKNode []
    (DEnum [
    mkvariant "GroupedTanru" [] (Named [fd (TyName "WithFree" [(nm "Ke")]);
      fd (nm "Selbri2");
      fd (TyOption (nm "Kehe"));
      fd (nm "Frees")]);
    mkvariant "Gismu" [] (Unnamed [fd (TyName "WithFree" [(nm "Gismu")])]);
    mkvariant "Lujvo" [] (Unnamed [fd (TyName "WithFree" [(nm "Lujvo")])]);
    mkvariant "Fuhivla" [] (Unnamed [fd (TyName "WithFree" [(nm "Fuhivla")])]);
    mkvariant "Zei" [] (Unnamed [fd (TyName "WithFree" [(nm "ZeiClause")])]);
    mkvariant "Goha" [] (Named [fd (nm "Goha");
      fd (TyOption (nm "Raho"));
      fd (nm "Frees")]);
    mkvariant "Moi" [] (Unnamed [fd (nm "MiscNumbers");
      fd (nm "Moi");
      fd (nm "Frees")]);
    mkvariant "Me" [] (Named [fd (TyName "WithFree" [(nm "Me")]);
      fd (nm "Sumti");
      fd (TyOption (nm "Mehu"));
      fd (nm "Frees");
      fd (TyOption (TyName "WithFree" [(nm "Moi")]))]);
    mkvariant "Nu" [] (Named [fd (TyName "Separated" [(TyTuple [(nm "Nu"); (TyOption (nm "Nai")); (nm "Frees")]); (nm "JoikJek")]);
      fd (TyRef (nm "Subsentence"));
      fd (TyOption (nm "Kei"));
      fd (nm "Frees")]);
    mkvariant "Nuha" [] (Named [fd (TyName "WithFree" [(nm "Nuha")]);
      fd (nm "MeksoOperator")])]).

(** cst/rules/mod.rs:435-442 *)
Definition d_ZeiClause : decl :=
  mkdecl "ZeiClause" [] TKNode []
    (DStruct (Unnamed [mkfield (TyRef (TySlice (nm "Bahe"))) [AWith "many0"];
    fd (nm "BuInner");
    mkfield (TyRef (TySlice (nm "ZeiBuInner"))) [AWith "many0"];
    fd (nm "ZeiTail");
    mkfield (TyOption (TyRef (nm "Indicators"))) [ANot (nm "Zei"); ANot (nm "Bu")]])).

(** cst/rules/mod.rs:444-448 *)
Definition d_ZeiBuInner : decl :=
  mkdecl "ZeiBuInner" [] TKNode []
    (DStruct (Unnamed [fd (TyOption (nm "ZeiTail"));
    mkfield (TyRef (TySlice (nm "Bu"))) [AWith "many1"]])).

(** cst/rules/mod.rs:450-451 *)
Definition d_ZeiTail : decl :=
  mkdecl "ZeiTail" [] TKNode []
    (DStruct (Unnamed [mkfield (TyRef (TySlice (TyTuple [(nm "Zei"); (nm "Token")]))) [AWith "many1"]])).

(** cst/rules/mod.rs:463-469 *)
Definition d_Tag : decl :=
  mkdecl "Tag" [] TKNode []
    (DStruct (Named [fd (nm "TagWords");
    mkfield (TyOption (nm "TagValue")) [ANot (nm "Gik"); ANot (nm "Ke")]])).

(** cst/rules/mod.rs:471-475 *)
Definition d_TagValue : decl :=
  mkdecl "TagValue" [] TKNode []
    (DEnum [
    mkvariant "Ku" [] (Unnamed [fd (TyName "WithFree" [(nm "Ku")])]);
    mkvariant "Sumti" [] (Unnamed [fd (nm "Sumti")])]).

(** cst/rules/mod.rs:479-504 *)
Definition d_TagWord : decl :=
  mkdecl "TagWord" [] TKNode []
    (DEnum [
    mkvariant "Bai" [] (Named [fd (TyOption (nm "Nahe"));
      fd (TyOption (nm "Se"));
      fd (nm "Bai");
      fd (TyOption (nm "Nai"));
      fd (TyOption (nm "Ki"));
      fd (nm "Frees")]);
    mkvariant "TimeSpaceCaha" [] (Named [fd (TyOption (nm "Nahe"));
      mkfield (TyRef (TySlice (nm "TimeSpaceCaha"))) [AWith "many1"];
      fd (TyOption (nm "Ki"));
      fd (nm "Frees")]);
    mkvariant "Ki" [] (Unnamed [fd (nm "Ki");
      fd (nm "Frees")]);
    mkvariant "Cuhe" [] (Unnamed [fd (nm "Cuhe");
      fd (nm "Frees")]);
    mkvariant "Converted" [] (Unnamed [fd (TyName "WithFree" [(nm "Fiho")]);
      fd (nm "Selbri");
      fd (TyOption (nm "Fehu"));
      fd (nm "Frees")])]).

(** cst/rules/mod.rs:506-511 *)
Definition d_TimeSpaceCaha : decl :=
  mkdecl "TimeSpaceCaha" [] TKNode []
    (DEnum [
    mkvariant "Time" [] (Unnamed [fd (TyRef (nm "Time"))]);
    mkvariant "Space" [] (Unnamed [fd (TyRef (nm "Space"))]);
    mkvariant "Caha" [] (Unnamed [fd (nm "Caha")])]).

(** cst/rules/mod.rs:513-522 *)
Definition d_Time : decl :=
  mkdecl "Time" [] TKNode [APostCond "|time| time.zi.is_some() || !time.offset.is_empty() || time.duration.is_some() || !time.properties.is_empty()"]
    (DStruct (Named [fd (TyOption (nm "Zi"));
    mkfield (TyRef (TySlice (nm "TimeOffset"))) [AWith "many0"];
    fd (TyOption (nm "TimeDuration"));
    mkfield (TyRef (TySlice (nm "TimeIntervalProperty"))) [AWith "many0"]])).

(** cst/rules/mod.rs:524-529 *)
Definition d_TimeOffset : decl :=
  mkdecl "TimeOffset" [] TKNode []
    (DStruct (Named [fd (nm "Pu");
    fd (TyOption (nm "Nai"));
    fd (TyOption (nm "Zi"))])).

(** cst/rules/mod.rs:531-536 *)
Definition d_TimeDuration : decl :=
  mkdecl "TimeDuration" [] TKNode []
    (DStruct (Named [fd (nm "Zeha");
    fd (TyOption (TyTuple [(nm "Pu"); (TyOption (nm "Nai"))]))])).

(** cst/rules/mod.rs:538-543 *)
Definition d_IntervalProperty : decl :=
  mkdecl "IntervalProperty" [] TKNode []
    (DEnum [
    mkvariant "Roi" [] (Unnamed [fd (nm "Number");
      fd (nm "Roi");
      fd (TyOption (nm "Nai"))]);
    mkvariant "Tahe" [] (Unnamed [fd (nm "Tahe");
      fd (TyOption (nm "Nai"))]);
    mkvariant "Zaho" [] (Unnamed [fd (nm "Zaho");
      fd (TyOption (nm "Nai"))])]).

(** cst/rules/mod.rs:547-555 *)
Definition d_Space : decl :=
  mkdecl "Space" [] TKNode [APostCond "|space| space.va.is_some() || !space.offset.is_empty() || space.interval.is_some() || space.motion.is_some()"]
    (DStruct (Named [fd (TyOption (nm "Va"));
    mkfield (TyRef (TySlice (nm "SpaceOffset"))) [AWith "many0"];
    fd (TyOption (nm "SpaceInterval"));
    fd (TyOption (nm "SpaceMotion"))])).

(** cst/rules/mod.rs:557-558 *)
Definition d_SpaceOffset : decl :=
  mkdecl "SpaceOffset" [] TKNode []
    (DStruct (Unnamed [fd (nm "Faha");
    fd (TyOption (nm "Nai"));
    fd (TyOption (nm "Va"))])).

(** cst/rules/mod.rs:560-569 *)
Definition d_SpaceInterval : decl :=
  mkdecl "SpaceInterval" [] TKNode []
    (DEnum [
    mkvariant "Interval" [] (Named [fd (TyName "EitherOrBoth" [(nm "Veha"); (nm "Viha")]);
      fd (TyOption (TyTuple [(nm "Faha"); (TyOption (nm "Nai"))]));
      mkfield (TyRef (TySlice (nm "SpaceIntervalProperty"))) [AWith "many0"]]);
    mkvariant "Properties" [] (Unnamed [mkfield (TyRef (TySlice (nm "SpaceIntervalProperty"))) [AWith "many1"]])]).

(** cst/rules/mod.rs:571-572 *)
Definition d_SpaceIntervalProperty : decl :=
  mkdecl "SpaceIntervalProperty" [] TKNode []
    (DStruct (Unnamed [fd (nm "Fehe");
    fd (nm "IntervalProperty")])).

(** cst/rules/mod.rs:574-578 *)
Definition d_SpaceMotion : decl :=
  mkdecl "SpaceMotion" [] TKNode []
    (DStruct (Named [fd (nm "Mohi");
    fd (nm "SpaceOffset")])).

(** cst/rules/mod.rs:580-584 *)
Definition d_Sumti : decl :=
  mkdecl "Sumti" [] TKNode []
    (DStruct (Named [fd (nm "Sumti1");
    fd (TyOption (nm "VuhoRelative"))])).

(** cst/rules/mod.rs:586-591 *)
Definition d_Sumti1 : decl :=
  mkdecl "Sumti1" [] TKNode []
    (DStruct (Unnamed [fd (nm "Sumti2");
    mkfield (TyRef (TySlice (TyName "SumtiLikeConnectedPost" [(nm "Sumti2"); (nm "Sumti")]))) [AWith "many0"]])).

(** cst/rules/mod.rs:593-604 *)
Definition d_SumtiLikeConnectedPost : decl :=
  mkdecl "SumtiLikeConnectedPost" ["Normal"; "Parenthesized"] TKNode []
    (DEnum [
    mkvariant "Normal" [] (Unnamed [fd (nm "JoikEk");
      fd (nm "Normal")]);
    mkvariant "Grouped" [] (Unnamed [fd (nm "JoikEk");
      fd (TyOption (nm "TagWords"));
      fd (TyName "WithFree" [(nm "Ke")]);
      fd (nm "Parenthesized");
      fd (TyOption (nm "Kehe"));
      fd (nm "Frees")])]).

(** cst/rules/mod.rs:617-621 *)
Definition d_VuhoRelative : decl :=
  mkdecl "VuhoRelative" [] TKNode []
    (DStruct (Named [fd (TyName "WithFree" [(nm "Vuho")]);
    fd (nm "RelativeClauses")])).

(** cst/rules/mod.rs:623-626 *)
Definition d_RelativeClauses : decl :=
  mkdecl "RelativeClauses" [] TKNode []
    (DStruct (Unnamed [fd (TyName "Separated" [(nm "RelativeClause"); (TyName "WithFree" [(nm "Zihe")])])])).

(** cst/rules/mod.rs:628-632 *)
Definition d_RelativeClause : decl :=
  mkdecl "RelativeClause" [] TKNode []
    (DEnum [
    mkvariant "Goi" [] (Unnamed [fd (nm "GoiRelativeClause")]);
    mkvariant "Noi" [] (Unnamed [fd (nm "NoiRelativeClause")])]).

(** cst/rules/mod.rs:634-641 *)
Definition d_GoiRelativeClause : decl :=
  mkdecl "GoiRelativeClause" [] TKNode []
    (DStruct (Named [fd (TyName "WithFree" [(nm "Goi")]);
    fd (nm "Arg");
    fd (TyOption (nm "Gehu"));
    fd (nm "Frees")])).

(** cst/rules/mod.rs:643-649 *)
Definition d_NoiRelativeClause : decl :=
  mkdecl "NoiRelativeClause" [] TKNode []
    (DStruct (Named [fd (TyName "WithFree" [(nm "Noi")]);
    fd (TyRef (nm "Subsentence"));
    fd (TyOption (nm "Kuho"));
    fd (nm "Frees")])).

(** cst/rules/mod.rs:651-655 *)
Definition d_Sumti3 : decl :=
  mkdecl "Sumti3" [] TKNode []
    (DStruct (Unnamed [mkfield (TyRef (TySlice (nm "Sumti3ConnectedPre"))) [AWith "many0"];
    fd (nm "Sumti4")])).

(** cst/rules/mod.rs:657-658 *)
Definition d_Sumti3ConnectedPre : decl :=
  mkdecl "Sumti3ConnectedPre" [] TKNode []
    (DStruct (Unnamed [fd (nm "Gek");
    fd (nm "Sumti");
    fd (nm "Gik")])).

(** cst/rules/mod.rs:660-674 *)
Definition d_Sumti4 : decl :=
  mkdecl "Sumti4" [] TKNode []
    (DEnum [
    mkvariant "Normal" [] (Named [fd (TyOption (nm "Quantifier"));
      fd (TyRef (nm "SumtiComponent"));
      fd (TyOption (nm "RelativeClauses"))]);
    mkvariant "SelbriShorthand" [] (Named [fd (nm "Quantifier");
      fd (nm "Selbri");
      fd (TyOption (nm "Ku"));
      fd (nm "Frees");
      fd (TyOption (nm "RelativeClauses"))])]).

(** cst/rules/mod.rs:676-689 *)
Definition d_Quantifier : decl :=
  mkdecl "Quantifier" [] TKNode []
    (DEnum [
    mkvariant "Mekso" [] (Unnamed [fd (TyName "WithFree" [(nm "Vei")]);
      fd (nm "Mekso");
      fd (TyOption (nm "Veho"));
      fd (nm "Frees")]);
    mkvariant "Number" [] (Unnamed [fd (nm "Number");
      mkfield (TyOption (nm "Boi")) [ANot (nm "Moi")];
      fd (nm "Frees")])]).

(** cst/rules/mod.rs:691-696 *)
Definition d_Number : decl :=
  mkdecl "Number" [] TKNode []
    (DStruct (Named [fd (nm "Pa");
    mkfield (TyRef (TySlice (nm "NumberRest"))) [AWith "many0"]])).

(** cst/rules/mod.rs:698-702 *)
Definition d_NumberRest : decl :=
  mkdecl "NumberRest" [] TKNode []
    (DEnum [
    mkvariant "Pa" [] (Unnamed [fd (nm "Pa")]);
    mkvariant "Lerfu" [] (Unnamed [fd (nm "LerfuWord")])]).

(** cst/rules/mod.rs:704-709 *)
Definition d_LerfuString : decl :=
  mkdecl "LerfuString" [] TKNode []
    (DStruct (Named [fd (nm "LerfuWord");
    mkfield (TyRef (TySlice (nm "NumberRest"))) [AWith "many0"]])).

(** cst/rules/mod.rs:711-712 *)
Definition d_MiscNumbers : decl :=
  mkdecl "MiscNumbers" [] TKNode []
    (DStruct (Unnamed [mkfield (TyRef (TySlice (nm "NumberRest"))) [AWith "many1"]])).

(** cst/rules/mod.rs:714-727 *)
Definition d_LerfuWord : decl :=
  mkdecl "LerfuWord" [] TKNode []
    (DEnum [
    mkvariant "Lerfu" [] (Unnamed [fd (nm "Lerfu")]);
    mkvariant "Lau" [] (Named [fd (nm "Lau");
      fd (nm "Lerfu")]);
    mkvariant "Tei" [] (Named [fd (nm "Tei");
      fd (TyRef (nm "LerfuString"));
      mkfield (nm "Foi") [ACut]])]).

(** cst/rules/mod.rs:729-738 *)
Definition d_Lerfu : decl :=
  mkdecl "Lerfu" [] TKNode []
    (DEnum [
    mkvariant "Bu" [] (Unnamed [fd (TyOption (nm "Bahe"));
      fd (nm "BuInner");
      mkfield (TyRef (TySlice (nm "Bu"))) [AWith "many1"];
      mkfield (TyRef (TySlice (nm "Indicators"))) [AWith "many0"]]);
    mkvariant "By" [] (Unnamed [fd (nm "By")])]).

(** cst/rules/mod.rs:740-744 *)
Definition d_BuInner : decl :=
  mkdecl "BuInner" [] TKNode [APostCond "|Self(token)| !matches!(token.selmaho, Selmaho::Bu | Selmaho::Zei | Selmaho::Si | Selmaho::Su | Selmaho::Sa | Selmaho::Faho)"]
    (DStruct (Unnamed [fd (nm "Token")])).

(** cst/rules/mod.rs:748-767 *)
Definition d_SumtiComponent1 : decl :=
  mkdecl "SumtiComponent1" [] TKNode []
    (DEnum [
    mkvariant "Koha" [] (Unnamed [fd (nm "Koha")]);
    mkvariant "Gadri" [] (Unnamed [fd (TyRef (nm "GadriSumti"))]);
    mkvariant "La" [] (Unnamed [fd (nm "LaSumti")]);
    mkvariant "Lohu" [] (Unnamed [fd (nm "LohuSumti")]);
    mkvariant "Lu" [] (Unnamed [fd (nm "LuSumti")]);
    mkvariant "Modified" [] (Unnamed [fd (nm "ModifiedSumti")]);
    mkvariant "LerfuString" [] (Unnamed [fd (nm "LerfuString");
      mkfield (TyOption (nm "Boi")) [ANot (nm "Moi")]]);
    mkvariant "Zo" [] (Unnamed [fd (nm "ZoSumti")]);
    mkvariant "Zoi" [] (Unnamed [fd (nm "ZoiSumti")]);
    mkvariant "Li" [] (Unnamed [fd (TyName "WithFree" [(nm "Li")]);
      fd (nm "Mekso");
      fd (TyOption (nm "Loho"))])]).

(** cst/rules/mod.rs:795-800 *)
Definition d_LuSumti : decl :=
  mkdecl "LuSumti" [] TKNode []
    (DStruct (Named [fd (nm "Lu");
    fd (nm "Text");
    fd (TyOption (nm "Lihu"))])).

(** cst/rules/mod.rs:802-808 *)
Definition d_ModifiedSumti : decl :=
  mkdecl "ModifiedSumti" [] TKNode []
    (DStruct (Named [fd (TyName "WithFree" [(nm "SumtiModifier")]);
    fd (TyOption (nm "RelativeClauses"));
    fd (nm "Sumti");
    fd (TyOption (nm "Luhu"))])).

(** cst/rules/mod.rs:810-814 *)
Definition d_SumtiModifier : decl :=
  mkdecl "SumtiModifier" [] TKNode []
    (DEnum [
    mkvariant "Lahe" [] (Unnamed [fd (nm "Lahe")]);
    mkvariant "NaheBo" [] (Unnamed [fd (nm "Nahe");
      fd (nm "Bo")])]).

(** cst/rules/mod.rs:816-822 *)
Definition d_GadriSumti : decl :=
  mkdecl "GadriSumti" [] TKNode []
    (DStruct (Named [fd (TyName "WithFree" [(nm "Gadri")]);
    fd (nm "GadriSumtiPre");
    fd (nm "GadriSumtiContents");
    fd (TyOption (nm "Ku"))])).

(** cst/rules/mod.rs:824-828 *)
Definition d_Gadri : decl :=
  mkdecl "Gadri" [] TKNode []
    (DEnum [
    mkvariant "Le" [] (Unnamed [fd (nm "Le")]);
    mkvariant "La" [] (Unnamed [fd (nm "La")])]).

(** cst/rules/mod.rs:830-844 *)
Definition d_GadriSumtiPre : decl :=
  mkdecl "GadriSumtiPre" [] TKPass []
    (DEnum [
    mkvariant "Simple" [] (Named [fd (TyOption (TyRef (nm "SumtiComponent")));
      fd (TyOption (nm "RelativeClauses"))]);
    mkvariant "Relative" [] (Named [fd (nm "RelativeClauses")]);
    mkvariant "FullPre" [] (Named [fd (TyRef (nm "Sumti"))])]).

(** cst/rules/mod.rs:846-854 *)
Definition d_GadriSumtiContents : decl :=
  mkdecl "GadriSumtiContents" [] TKNode []
    (DEnum [
    mkvariant "Selbri" [] (Unnamed [fd (TyOption (nm "Quantifier"));
      fd (nm "Selbri");
      fd (TyOption (nm "RelativeClauses"))]);
    mkvariant "Sumti" [] (Unnamed [fd (nm "Quantifier");
      fd (nm "Sumti")])]).

(** cst/rules/mod.rs:856-861 *)
Definition d_LaSumti : decl :=
  mkdecl "LaSumti" [] TKNode []
    (DStruct (Named [fd (nm "La");
    mkfield (TyRef (TySlice (nm "Cmevla"))) [AWith "many1"]])).

(** cst/rules/mod.rs:863-867 *)
Definition d_ZoSumti : decl :=
  mkdecl "ZoSumti" [] TKNode []
    (DStruct (Named [fd (nm "Zo");
    fd (nm "Token")])).

(** cst/rules/mod.rs:869-875 *)
Definition d_ZoiSumti : decl :=
  mkdecl "ZoiSumti" [] TKNode []
    (DStruct (Named [fd (nm "Zoi");
    fd (nm "ZoiDelimiter");
    fd (nm "ZoiText");
    fd (nm "ZoiDelimiter")])).

(** cst/rules/mod.rs:877-879 *)
Definition d_ZoiDelimiter : decl :=
  mkdecl "ZoiDelimiter" [] TKSpanLeaf []
    (DStruct (Unnamed [fd (nm "Span")])).

(** cst/rules/mod.rs:901-902 *)
Definition d_ZoiText : decl :=
  mkdecl "ZoiText" [] TKSpanLeaf []
    (DStruct (Unnamed [fd (nm "Span")])).

(** cst/rules/mod.rs:924-941 *)
Definition d_Free : decl :=
  mkdecl "Free" [] TKNode []
    (DEnum [
    mkvariant "Sei" [] (Unnamed [fd (TyName "WithFree" [(nm "Sei")]);
      fd (nm "Args");
      fd (TyOption (nm "SeiTail"));
      fd (TyOption (TyName "WithFree" [(nm "Sehu")]))]);
    mkvariant "Soi" [] (Unnamed [fd (TyName "WithFree" [(nm "Soi")]);
      fd (TyRef (TyTuple [(nm "Sumti"); (TyOption (nm "Sumti"))]));
      fd (TyOption (nm "Sehu"))]);
    mkvariant "Vocative" [] (Unnamed [fd (nm "Vocative")]);
    mkvariant "Mai" [] (Unnamed [fd (nm "MiscNumbers");
      fd (nm "Mai")]);
    mkvariant "To" [] (Unnamed [fd (nm "To");
      fd (nm "Text");
      fd (TyOption (nm "Toi"))]);
    mkvariant "Xi" [] (Unnamed [fd (nm "Subscript")])]).

(** cst/rules/mod.rs:943-950 *)
Definition d_Vocative : decl :=
  mkdecl "Vocative" [] TKNode []
    (DStruct (Unnamed [fd (nm "VocativeWords");
    fd (TyOption (nm "RelativeClauses"));
    fd (nm "VocativeValue");
    fd (TyOption (nm "RelativeClauses"));
    fd (TyOption (nm "Dohu"))])).

(** cst/rules/mod.rs:952-957 *)
Definition d_SeiTail : decl :=
  mkdecl "SeiTail" [] TKNode []
    (DStruct (Unnamed [fd (TyOption (nm "Cu"));
    fd (nm "Frees");
    fd (nm "Selbri")])).

(** cst/rules/mod.rs:959-966 *)
Definition d_VocativeWords : decl :=
  mkdecl "VocativeWords" [] TKNode []
    (DEnum [
    mkvariant "Coi" [] (Unnamed [mkfield (TyRef (TySlice (TyTuple [(nm "Coi"); (TyOption (nm "Nai"))]))) [AWith "many1"];
      fd (TyOption (nm "Doi"))]);
    mkvariant "Doi" [] (Unnamed [fd (nm "Doi")])]).

(** cst/rules/mod.rs:968-973 *)
Definition d_VocativeValue : decl :=
  mkdecl "VocativeValue" [] TKNode []
    (DEnum [
    mkvariant "Selbri" [] (Unnamed [fd (TyRef (nm "Selbri"))]);
    mkvariant "Cmevla" [] (Unnamed [mkfield (TyRef (TySlice (nm "Cmevla"))) [AWith "many1"]]);
    mkvariant "Sumti" [] (Unnamed [fd (TyOption (TyRef (nm "Sumti")))])]).

(** cst/rules/mod.rs:975-979 *)
Definition d_Subscript : decl :=
  mkdecl "Subscript" [] TKNode []
    (DStruct (Unnamed [fd (TyName "WithFree" [(nm "Xi")]);
    fd (TyName "WithFree" [(nm "SubscriptValue")])])).

(** cst/rules/mod.rs:981-994 *)
Definition d_SubscriptValue : decl :=
  mkdecl "SubscriptValue" [] TKNode []
    (DEnum [
    mkvariant "Mekso" [] (Unnamed [fd (TyName "WithFree" [(nm "Vei")]);
      fd (nm "Mekso");
      fd (TyOption (nm "Veho"));
      fd (nm "Frees")]);
    mkvariant "Number" [] (Unnamed [fd (nm "MiscNumbers");
      mkfield (TyOption (nm "Boi")) [ANot (nm "Moi")];
      fd (nm "Frees")])]).

(** cst/rules/mod.rs:996-1000 *)
Definition d_Indicators : decl :=
  mkdecl "Indicators" [] TKNode []
    (DStruct (Unnamed [fd (TyOption (nm "Fuhe"));
    mkfield (TyRef (TySlice (nm "Indicator"))) [AWith "many1"]])).

(** cst/rules/mod.rs:1002-1011 *)
Definition d_Indicator : decl :=
  mkdecl "Indicator" [] TKNode [ANotAfter (nm "Bu")]
    (DEnum [
    mkvariant "Ui" [] (Unnamed [fd (nm "Ui")]);
    mkvariant "Cai" [] (Unnamed [fd (nm "Cai")]);
    mkvariant "Nai" [] (Unnamed [fd (nm "Nai")]);
    mkvariant "Daho" [] (Unnamed [fd (nm "Daho")]);
    mkvariant "Fuho" [] (Unnamed [fd (nm "Fuho")]);
    mkvariant "Y" [] (Unnamed [fd (nm "Y")])]).

(** cst/rules/helpers.rs:42-47; [TreeNode] written by hand, :49-82 *)
Definition d_Separated : decl :=
  mkdecl "Separated" ["Item"; "Separator"] TKNode []
    (DStruct (Named [fd (TyRef (nm "Item"));
    mkfield (TyRef (TySlice (TyTuple [(nm "Separator"); (nm "Item")]))) [AWith "many0"]])).

(** cst/rules/helpers.rs:106-112 *)
Definition d_EitherOrBoth : decl :=
  mkdecl "EitherOrBoth" ["L"; "R"] TKPass []
    (DEnum [
    mkvariant "Right" [] (Unnamed [fd (nm "R")]);
    mkvariant "Both" [] (Unnamed [fd (nm "L");
      fd (nm "R")]);
    mkvariant "Left" [] (Unnamed [fd (nm "L")])]).

(** cst/rules/connectives.rs:5-11 *)
Definition d_NaSeTNai : decl :=
  mkdecl "NaSeTNai" ["T"] TKNode []
    (DStruct (Unnamed [fd (TyOption (nm "Na"));
    fd (TyOption (nm "Se"));
    fd (nm "T");
    fd (TyOption (nm "Nai"))])).

(** cst/rules/connectives.rs:25-31 *)
Definition d_Guhek : decl :=
  mkdecl "Guhek" [] TKNode []
    (DStruct (Unnamed [fd (TyOption (nm "Se"));
    fd (nm "Guha");
    fd (TyOption (nm "Nai"));
    fd (nm "Frees")])).

(** cst/rules/connectives.rs:33-38 *)
Definition d_Interval : decl :=
  mkdecl "Interval" [] TKNode []
    (DStruct (Unnamed [fd (TyOption (nm "Se"));
    fd (nm "Bihi");
    fd (TyOption (nm "Nai"))])).

(** cst/rules/connectives.rs:40-45 *)
Definition d_Joik : decl :=
  mkdecl "Joik" [] TKNode []
    (DEnum [
    mkvariant "SeJoiNai" [] (Unnamed [fd (TyOption (nm "Se"));
      fd (nm "Joi");
      fd (TyOption (nm "Nai"))]);
    mkvariant "Interval" [] (Unnamed [fd (nm "Interval")]);
    mkvariant "Gaho" [] (Unnamed [fd (nm "Gaho");
      fd (nm "Interval");
      mkfield (nm "Gaho") [ACut]])]).

(** cst/rules/connectives.rs:47-48 *)
Definition d_Gik : decl :=
  mkdecl "Gik" [] TKNode []
    (DStruct (Unnamed [fd (nm "Gi");
    fd (TyOption (nm "Nai"));
    fd (nm "Frees")])).

(** cst/rules/connectives.rs:50-60 *)
Definition d_Gek : decl :=
  mkdecl "Gek" [] TKNode []
    (DEnum [
    mkvariant "SeGaNai" [] (Unnamed [fd (TyOption (nm "Se"));
      fd (nm "Ga");
      fd (TyOption (nm "Nai"));
      fd (nm "Frees")]);
    mkvariant "JoikGi" [] (Unnamed [fd (nm "Joik");
      fd (nm "Gi");
      fd (nm "Frees")]);
    mkvariant "TagGik" [] (Unnamed [fd (nm "TagWords");
      fd (nm "Gik")])]).

(** cst/rules/connectives.rs:62-66 *)
Definition d_JoikJek : decl :=
  mkdecl "JoikJek" [] TKNode []
    (DEnum [
    mkvariant "Joik" [] (Unnamed [fd (nm "Joik")]);
    mkvariant "Jek" [] (Unnamed [fd (nm "Jek")])]).

(** cst/rules/connectives.rs:68-72 *)
Definition d_JoikEk : decl :=
  mkdecl "JoikEk" [] TKNode []
    (DEnum [
    mkvariant "Joik" [] (Unnamed [fd (nm "Joik");
      fd (nm "Frees")]);
    mkvariant "Ek" [] (Unnamed [fd (nm "Ek");
      fd (nm "Frees")])]).

(** cst/rules/mekso.rs:11-21 *)
Definition d_Expression : decl :=
  mkdecl "Expression" [] TKNode []
    (DEnum [
    mkvariant "ReversePolish" [] (Unnamed [fd (TyName "WithFree" [(nm "Fuha")]);
      fd (nm "ReversePolish")]);
    mkvariant "Normal" [] (Unnamed [fd (TyName "Separated" [(TyName "Separated" [(nm "Expression1"); (TyTuple [(TyName "WithFree" [(nm "Bihe")]); (nm "Operator")])]); (nm "Operator")])])]).

(** cst/rules/mekso.rs:24-28 *)
Definition d_ReversePolish : decl :=
  mkdecl "ReversePolish" [] TKNode []
    (DStruct (Unnamed [fd (nm "Operand");
    mkfield (TyRef (TySlice (nm "RPTail"))) [AWith "many0"]])).

(** cst/rules/mekso.rs:30-31 *)
Definition d_RPTail : decl :=
  mkdecl "RPTail" [] TKNode []
    (DStruct (Unnamed [fd (nm "ReversePolish");
    fd (nm "Operator")])).

(** cst/rules/mekso.rs:33-37 *)
Definition d_Expression1 : decl :=
  mkdecl "Expression1" [] TKNode []
    (DEnum [
    mkvariant "Operand" [] (Unnamed [fd (nm "Operand")]);
    mkvariant "Forethought" [] (Unnamed [fd (nm "ForethoughtExpression")])]).

(** cst/rules/mekso.rs:39-47 *)
Definition d_ForethoughtExpression : decl :=
  mkdecl "ForethoughtExpression" [] TKNode []
    (DStruct (Named [fd (TyOption (TyName "WithFree" [(nm "Peho")]));
    fd (nm "Operator");
    mkfield (TyRef (TySlice (nm "Expression1"))) [AWith "many1"];
    fd (TyOption (nm "Kuhe"));
    fd (nm "Frees")])).

(** cst/rules/mekso.rs:49-53 *)
Definition d_Operand : decl :=
  mkdecl "Operand" [] TKNode []
    (DStruct (Unnamed [fd (nm "Operand1");
    mkfield (TyRef (TySlice (nm "ConnectedOperand"))) [AWith "many0"]])).

(** cst/rules/mekso.rs:58-69 *)
Definition d_Operand1 : decl :=
  mkdecl "Operand1" [] TKNode []
    (DStruct (Unnamed [fd (TyName "Separated" [(nm "Operand2"); (TyTuple [(nm "JoikEk"); (TyOption (nm "TagWords")); (TyName "WithFree" [(nm "Bo")])])])])).

(** cst/rules/mekso.rs:71-75 *)
Definition d_Operand2 : decl :=
  mkdecl "Operand2" [] TKNode []
    (DStruct (Unnamed [mkfield (TyRef (TySlice (nm "Operand2ConnectedPre"))) [AWith "many0"];
    fd (nm "Operand3")])).

(** cst/rules/mekso.rs:77-78 *)
Definition d_Operand2ConnectedPre : decl :=
  mkdecl "Operand2ConnectedPre" [] TKNode []
    (DStruct (Unnamed [fd (nm "Gek");
    fd (nm "Operand");
    fd (nm "Gik")])).

(** cst/rules/mekso.rs:80-116 *)
Definition d_Operand3 : decl :=
  mkdecl "Operand3" [] TKNode []
    (DEnum [
    mkvariant "Nihe" [] (Unnamed [fd (TyName "WithFree" [(nm "Nihe")]);
      fd (nm "Selbri");
      fd (TyOption (nm "Tehu"));
      fd (nm "Frees")]);
    mkvariant "Mohe" [] (Unnamed [fd (TyName "WithFree" [(nm "Mohe")]);
      fd (nm "Sumti");
      fd (TyOption (nm "Tehu"));
      fd (nm "Frees")]);
    mkvariant "Johi" [] (Unnamed [fd (TyName "WithFree" [(nm "Johi")]);
      mkfield (TyRef (TySlice (nm "Expression1"))) [AWith "many1"];
      fd (TyOption (nm "Tehu"));
      fd (nm "Frees")]);
    mkvariant "Modified" [] (Unnamed [fd (nm "OperandModifier");
      fd (nm "Operand");
      fd (TyOption (nm "Luhu"))]);
    mkvariant "Parenthesized" [] (Unnamed [fd (TyName "WithFree" [(nm "Vei")]);
      fd (nm "Expression");
      fd (TyOption (nm "Veho"));
      fd (nm "Frees")]);
    mkvariant "Number" [] (Unnamed [fd (nm "MiscNumbers");
      mkfield (TyOption (nm "Boi")) [ANot (nm "Moi")];
      fd (nm "Frees")])]).

(** cst/rules/mekso.rs:120-124 *)
Definition d_Operator : decl :=
  mkdecl "Operator" [] TKNode []
    (DStruct (Unnamed [fd (nm "Operator1");
    mkfield (TyRef (TySlice (nm "ConnectedOperator"))) [AWith "many0"]])).

(** cst/rules/mekso.rs:129-133 *)
Definition d_Operator1 : decl :=
  mkdecl "Operator1" [] TKNode []
    (DStruct (Unnamed [mkfield (TyRef (TySlice (TyName "NaheGuhekTGik" [(nm "Self")]))) [AWith "many0"];
    fd (nm "Operator2")])).

(** cst/rules/mekso.rs:135-146 *)
Definition d_Operator2 : decl :=
  mkdecl "Operator2" [] TKNode []
    (DStruct (Unnamed [fd (TyName "Separated" [(nm "Operator3"); (TyTuple [(nm "JoikJek"); (TyOption (nm "TagWords")); (TyName "WithFree" [(nm "Bo")])])])])).

(** cst/rules/mekso.rs:148-157 *)
Definition d_Operator3 : decl :=
  mkdecl "Operator3" [] TKNode []
    (DEnum [
    mkvariant "Simple" [] (Unnamed [fd (nm "OperatorComponent")]);
    mkvariant "Grouped" [] (Unnamed [fd (TyName "WithFree" [(nm "Ke")]);
      fd (nm "Operator");
      fd (nm "Kehe");
      fd (nm "Frees")])]).

(** cst/rules/mekso.rs:159-163 *)
Definition d_OperatorComponent : decl :=
  mkdecl "OperatorComponent" [] TKNode []
    (DStruct (Unnamed [mkfield (TyRef (TySlice (nm "OperatorComponentPre"))) [AWith "many0"];
    fd (nm "OperatorComponent1")])).

(** cst/rules/mekso.rs:165-169 *)
Definition d_OperatorComponentPre : decl :=
  mkdecl "OperatorComponentPre" [] TKNode []
    (DEnum [
    mkvariant "Nahe" [] (Unnamed [fd (TyName "WithFree" [(nm "Nahe")])]);
    mkvariant "Se" [] (Unnamed [fd (TyName "WithFree" [(nm "Se")])])]).

(** cst/rules/mekso.rs:171-186 *)
Definition d_OperatorComponent1 : decl :=
  mkdecl "OperatorComponent1" [] TKNode []
    (DEnum [
    mkvariant "Maho" [] (Unnamed [fd (TyName "WithFree" [(nm "Maho")]);
      fd (nm "Expression");
      fd (TyOption (nm "Tehu"));
      fd (nm "Frees")]);
    mkvariant "Nahu" [] (Unnamed [fd (TyName "WithFree" [(nm "Nahu")]);
      fd (nm "Selbri");
      fd (TyOption (nm "Tehu"));
      fd (nm "Frees")]);
    mkvariant "Vuhu" [] (Unnamed [fd (TyName "WithFree" [(nm "Vuhu")])])]).

(** cst/rules/connectives.rs:13-23, by the macro [_ks!] *)
Definition d_Ek : decl :=
  mkdecl "Ek" [] TKNode []
    (DStruct (Unnamed [fd (TyName "NaSeTNai" [(nm "A")])])).

(** cst/rules/connectives.rs:13-23, by the macro [_ks!] *)
Definition d_Jek : decl :=
  mkdecl "Jek" [] TKNode []
    (DStruct (Unnamed [fd (TyName "NaSeTNai" [(nm "Ja")])])).

(** cst/rules/connectives.rs:13-23, by the macro [_ks!] *)
Definition d_Gihek : decl :=
  mkdecl "Gihek" [] TKNode []
    (DStruct (Unnamed [fd (TyName "NaSeTNai" [(nm "Giha")])])).

Definition decls : list decl :=
  [d_WithFree; d_Frees; d_Text; d_Paragraphs; d_Paragraph; d_ParagraphItem; d_Fragment; d_Sentences1; d_Sentences3; d_ParagraphSeparator; d_SentenceSeparator; d_ConnectedSentenceSeparator; d_CloseSentenceSeparator; d_Sentence; d_SentenceTail; d_SentenceTail1; d_SentenceTail1After; d_SentenceTail2; d_SentenceTail2Connective; d_SentenceTail2After; d_SentenceTail3; d_SentenceTail3After; d_SentenceTail4; d_GekSentence; d_Subsentence; d_Args; d_TailArgs; d_Prenex; d_Arg; d_PeheConnective; d_Arg3; d_Termset; d_Selbri; d_SelbriBefore; d_Selbri1; d_Selbri2; d_Selbri3; d_SelbriLikeConnectedPost; d_Selbri4; d_Selbri5; d_NaheGuhekTGik; d_Selbri6; d_TanruUnit; d_TanruUnit1; d_BeforeTanruUnit; d_BoundArguments; d_TanruUnit2; d_ZeiClause; d_ZeiBuInner; d_ZeiTail; d_Tag; d_TagValue; d_TagWord; d_TimeSpaceCaha; d_Time; d_TimeOffset; d_TimeDuration; d_IntervalProperty; d_Space; d_SpaceOffset; d_SpaceInterval; d_SpaceIntervalProperty; d_SpaceMotion; d_Sumti; d_Sumti1; d_SumtiLikeConnectedPost; d_VuhoRelative; d_RelativeClauses; d_RelativeClause; d_GoiRelativeClause; d_NoiRelativeClause; d_Sumti3; d_Sumti3ConnectedPre; d_Sumti4; d_Quantifier; d_Number; d_NumberRest; d_LerfuString; d_MiscNumbers; d_LerfuWord; d_Lerfu; d_BuInner; d_SumtiComponent1; d_LuSumti; d_ModifiedSumti; d_SumtiModifier; d_GadriSumti; d_Gadri; d_GadriSumtiPre; d_GadriSumtiContents; d_LaSumti; d_ZoSumti; d_ZoiSumti; d_ZoiDelimiter; d_ZoiText; d_Free; d_Vocative; d_SeiTail; d_VocativeWords; d_VocativeValue; d_Subscript; d_SubscriptValue; d_Indicators; d_Indicator; d_Separated; d_EitherOrBoth; d_NaSeTNai; d_Guhek; d_Interval; d_Joik; d_Gik; d_Gek; d_JoikJek; d_JoikEk; d_Expression; d_ReversePolish; d_RPTail; d_Expression1; d_ForethoughtExpression; d_Operand; d_Operand1; d_Operand2; d_Operand2ConnectedPre; d_Operand3; d_Operator; d_Operator1; d_Operator2; d_Operator3; d_OperatorComponent; d_OperatorComponentPre; d_OperatorComponent1; d_Ek; d_Jek; d_Gihek].

(** the type aliases, and the renaming imports of cst/rules/mod.rs:18 *)
Definition aliases : list (string * ty) := [
  ("Mekso", nm "Expression") (* mod.rs:18 *);
  ("MeksoOperator", nm "Operator") (* mod.rs:18 *);
  ("Root", (nm "Text")) (* mod.rs:36-36 *);
  ("ParagraphItems", (TyName "Separated" [(nm "ParagraphItem"); (nm "SentenceSeparator")])) (* mod.rs:56-57 *);
  ("Sentences2", (TyName "Separated" [(nm "Sentences3"); (nm "CloseSentenceSeparator")])) (* mod.rs:89-89 *);
  ("SentenceTail3Connective", (TyTuple [(nm "Gihek"); (TyOption (nm "TagWords")); (nm "Bo"); (nm "Frees")])) (* mod.rs:184-189 *);
  ("Arg1", (TyName "Separated" [(nm "Arg2"); (nm "PeheConnective")])) (* mod.rs:249-249 *);
  ("Arg2", (TyName "Separated" [(nm "Arg3"); (TyName "WithFree" [(nm "Cehe")])])) (* mod.rs:254-254 *);
  ("Selbri3ConnectedPost", (TyName "SelbriLikeConnectedPost" [(nm "Selbri4"); (nm "Selbri2")])) (* mod.rs:317-318 *);
  ("TagWords", (TyName "Separated" [(nm "TagWord"); (nm "JoikJek")])) (* mod.rs:477-477 *);
  ("TimeIntervalProperty", (nm "IntervalProperty")) (* mod.rs:545-545 *);
  ("Sumti2", (TyName "Separated" [(nm "Sumti3"); (TyTuple [(nm "JoikEk"); (TyOption (nm "TagWords")); (nm "Bo"); (nm "Frees")])])) (* mod.rs:606-615 *);
  ("SumtiComponent", (TyName "WithFree" [(nm "SumtiComponent1")])) (* mod.rs:746-746 *);
  ("ConnectedOperand", (TyName "SumtiLikeConnectedPost" [(nm "Operand1"); (nm "Operand")])) (* mekso.rs:55-56 *);
  ("OperandModifier", (nm "SumtiModifier")) (* mekso.rs:118-118 *);
  ("ConnectedOperator", (TyName "SelbriLikeConnectedPost" [(nm "Operator1"); (nm "Operator")])) (* mekso.rs:126-127 *)].

(** the token types: cst/rules/selmaho.rs, [token_types!]; the three kinds are
    [@single] (:175-231), [@no_indicators] (:123-174) and [@raw] (:57-122) *)
Inductive tok_kind := KSingle | KNoIndicators | KRaw.
Definition token_types : list (string * (tok_kind * Selmaho)) := [
  ("A", (KSingle, S_A));
  ("Bahe", (KRaw, S_Bahe));
  ("Bai", (KSingle, S_Bai));
  ("Be", (KSingle, S_Be));
  ("Beho", (KSingle, S_Beho));
  ("Bei", (KSingle, S_Bei));
  ("Bihe", (KSingle, S_Bihe));
  ("Bihi", (KSingle, S_Bihi));
  ("Bo", (KSingle, S_Bo));
  ("Boi", (KSingle, S_Boi));
  ("By", (KSingle, S_By));
  ("Caha", (KSingle, S_Caha));
  ("Cai", (KSingle, S_Cai));
  ("Cehe", (KSingle, S_Cehe));
  ("Cei", (KSingle, S_Cei));
  ("Cmevla", (KSingle, S_Cmevla));
  ("Co", (KSingle, S_Co));
  ("Coi", (KSingle, S_Coi));
  ("Giha", (KSingle, S_Giha));
  ("Cu", (KSingle, S_Cu));
  ("Cuhe", (KSingle, S_Cuhe));
  ("Daho", (KSingle, S_Daho));
  ("Dohu", (KSingle, S_Dohu));
  ("Doi", (KSingle, S_Doi));
  ("Tuhe", (KSingle, S_Tuhe));
  ("Tuhu", (KSingle, S_Tuhu));
  ("Fa", (KSingle, S_Fa));
  ("Faha", (KSingle, S_Faha));
  ("Faho", (KSingle, S_Faho));
  ("Fehe", (KSingle, S_Fehe));
  ("Fehu", (KSingle, S_Fehu));
  ("Fiho", (KSingle, S_Fiho));
  ("Foi", (KSingle, S_Foi));
  ("Fuha", (KSingle, S_Fuha));
  ("Fuhe", (KNoIndicators, S_Fuhe));
  ("Fuhivla", (KSingle, S_Fuhivla));
  ("Fuho", (KSingle, S_Fuho));
  ("Ga", (KSingle, S_Ga));
  ("Gaho", (KSingle, S_Gaho));
  ("Gehu", (KSingle, S_Gehu));
  ("Gi", (KSingle, S_Gi));
  ("Gismu", (KSingle, S_Gismu));
  ("Goha", (KSingle, S_Goha));
  ("Goi", (KSingle, S_Goi));
  ("Niho", (KSingle, S_Niho));
  ("Guha", (KSingle, S_Guha));
  ("I", (KSingle, S_I));
  ("Ja", (KSingle, S_Ja));
  ("Jai", (KSingle, S_Jai));
  ("Johi", (KSingle, S_Johi));
  ("Joi", (KSingle, S_Joi));
  ("Ke", (KSingle, S_Ke));
  ("Kehe", (KSingle, S_Kehe));
  ("Kei", (KSingle, S_Kei));
  ("Ki", (KSingle, S_Ki));
  ("Koha", (KSingle, S_Koha));
  ("Ku", (KSingle, S_Ku));
  ("Kuhe", (KSingle, S_Kuhe));
  ("Kuho", (KSingle, S_Kuho));
  ("La", (KSingle, S_La));
  ("Lahe", (KSingle, S_Lahe));
  ("Lau", (KSingle, S_Lau));
  ("Le", (KSingle, S_Le));
  ("Lehu", (KSingle, S_Lehu));
  ("Li", (KSingle, S_Li));
  ("Lihu", (KSingle, S_Lihu));
  ("Loho", (KSingle, S_Loho));
  ("Lohu", (KRaw, S_Lohu));
  ("Lu", (KRaw, S_Lu));
  ("Luhu", (KSingle, S_Luhu));
  ("Lujvo", (KSingle, S_Lujvo));
  ("Maho", (KSingle, S_Maho));
  ("Mai", (KSingle, S_Mai));
  ("Me", (KSingle, S_Me));
  ("Mehu", (KSingle, S_Mehu));
  ("Mohe", (KSingle, S_Mohe));
  ("Mohi", (KSingle, S_Mohi));
  ("Moi", (KSingle, S_Moi));
  ("Na", (KSingle, S_Na));
  ("Nahe", (KSingle, S_Nahe));
  ("Nahu", (KSingle, S_Nahu));
  ("Nai", (KSingle, S_Nai));
  ("Nihe", (KSingle, S_Nihe));
  ("Noi", (KSingle, S_Noi));
  ("Nu", (KSingle, S_Nu));
  ("Nuha", (KSingle, S_Nuha));
  ("Nuhi", (KSingle, S_Nuhi));
  ("Nuhu", (KSingle, S_Nuhu));
  ("Pa", (KSingle, S_Pa));
  ("Pehe", (KSingle, S_Pehe));
  ("Peho", (KSingle, S_Peho));
  ("Pu", (KSingle, S_Pu));
  ("Raho", (KSingle, S_Raho));
  ("Roi", (KSingle, S_Roi));
  ("Se", (KSingle, S_Se));
  ("Sehu", (KSingle, S_Sehu));
  ("Sei", (KSingle, S_Sei));
  ("Soi", (KSingle, S_Soi));
  ("Tahe", (KSingle, S_Tahe));
  ("Tehu", (KSingle, S_Tehu));
  ("Tei", (KSingle, S_Tei));
  ("To", (KSingle, S_To));
  ("Toi", (KSingle, S_Toi));
  ("Ui", (KSingle, S_Ui));
  ("Va", (KSingle, S_Va));
  ("Vau", (KSingle, S_Vau));
  ("Veha", (KSingle, S_Veha));
  ("Veho", (KSingle, S_Veho));
  ("Vei", (KSingle, S_Vei));
  ("Viha", (KSingle, S_Viha));
  ("Vuho", (KSingle, S_Vuho));
  ("Vuhu", (KSingle, S_Vuhu));
  ("Xi", (KSingle, S_Xi));
  ("Y", (KSingle, S_Y));
  ("Zaho", (KSingle, S_Zaho));
  ("Zeha", (KSingle, S_Zeha));
  ("Zei", (KNoIndicators, S_Zei));
  ("Zi", (KSingle, S_Zi));
  ("Zihe", (KSingle, S_Zihe));
  ("Zo", (KRaw, S_Zo));
  ("Zohu", (KSingle, S_Zohu));
  ("Zoi", (KRaw, S_Zoi))].

(** * What [T::parse] is *)

Definition assoc {A} (n : string) (l : list (string * A)) : option A :=
  option_map snd (find (fun x => String.eqb n (fst x)) l).

(** substitution of type arguments, as instantiating a generic type does *)
Fixpoint subst (s : list (string * ty)) (t : ty) : ty :=
  match t with
  | TyName n [] => match assoc n s with Some t' => t' | None => TyName n [] end
  | TyName n args => TyName n (map (subst s) args)
  | TyRef t => TyRef (subst s t)
  | TySlice t => TySlice (subst s t)
  | TyOption t => TyOption (subst s t)
  | TyTuple l => TyTuple (map (subst s) l)
  end.

Definition subst_attr (s : list (string * ty)) (a : pattr) : pattr :=
  match a with
  | ANot t => ANot (subst s t)
  | ANotAfter t => ANotAfter (subst s t)
  | _ => a
  end.
Definition subst_field (s : list (string * ty)) (f : field) : field :=
  mkfield (subst s (f_ty f)) (map (subst_attr s) (f_attrs f)).
Definition subst_fields (s : list (string * ty)) (fs : fields) : fields :=
  match fs with
  | Named l => Named (map (subst_field s) l)
  | Unnamed l => Unnamed (map (subst_field s) l)
  | Unit => Unit
  end.
Definition subst_variant (s : list (string * ty)) (v : variant) : variant :=
  mkvariant (v_name v) (v_attrs v) (subst_fields s (v_fields v)).

(** the declaration at type arguments; [Self] is the type itself *)
Definition instantiate (d : decl) (args : list ty) : option decl :=
  if Nat.eqb (List.length (d_params d)) (List.length args) then
    let s := ("Self", TyName (d_name d) args) :: combine (d_params d) args in
    Some (mkdecl (d_name d) (d_params d) (d_tree d) (map (subst_attr s) (d_attrs d))
            (match d_data d with
             | DStruct fs => DStruct (subst_fields s fs)
             | DEnum vs => DEnum (map (subst_variant s) vs)
             | DUnion => DUnion
             end))
  else None.

Definition find_decl (n : string) : option decl := find (fun d => String.eqb n (d_name d)) decls.

(** selmaho_raw, cst/rules/selmaho.rs:17-29 *)
Definition p_sel (s : Selmaho) : parser := fun i =>
  match i with
  | [] => CErr (mkerr [] (ExpectedGot [s] None))
  | t :: r => if sel_eqb (selmaho t) s then COk r (VTok t) else CErr (mkerr r (ExpectedGot [s] (Some t)))
  end.

(** Token::parse, Span::parse, cst/parse_trait.rs:27-44 *)
Definition p_token : parser := fun i =>
  match i with t :: r => COk r (VTok t) | [] => CErr (mkerr [] (Nom KEof)) end.
Definition p_span : parser := fun i =>
  match i with t :: r => COk r (VSpan "Span" (tspan t)) | [] => CErr (mkerr [] (Nom KEof)) end.

(** the functions [with] strings name: cst/rules/helpers.rs:8-24.  No other is
    used, and [with] is not used on containers. *)
Definition crate_with (w : string) (p : parser) : parser :=
  if String.eqb w "many0" then p_many0 p
  else if String.eqb w "many1" then p_many1 p
  else fun _ => COut.
Definition crate_container_with (w : string) : parser := fun _ => COut.

(** the closures of the [postcond] strings, cst/rules/mod.rs:514, :548, :742.
    Those of [Time] and [Space] name all the fields of their structs. *)
Definition cond_of (s : string) : option postcond :=
  if String.eqb s "|time| time.zi.is_some() || !time.offset.is_empty() || time.duration.is_some() || !time.properties.is_empty()"
  then Some PSomeField
  else if String.eqb s "|space| space.va.is_some() || !space.offset.is_empty() || space.interval.is_some() || space.motion.is_some()"
  then Some PSomeField
  else if String.eqb s "|Self(token)| !matches!(token.selmaho, Selmaho::Bu | Selmaho::Zei | Selmaho::Si | Selmaho::Su | Selmaho::Sa | Selmaho::Faho)"
  then Some (PNotSel [S_Bu; S_Zei; S_Si; S_Su; S_Sa; S_Faho])
  else None.
Definition crate_cond (s : string) (v : val) : bool :=
  match cond_of s with Some c => holds c v | None => false end.

Definition node (name : string) (v : val) : val := VNode name (fields_of v).

Section Impl.
Context (env : ty -> parser).

(** cst/rules/selmaho.rs: [Parse for $name], :99-106, :168-177, :221-233 *)
Definition p_token_type (k : tok_kind) (name : string) (s : Selmaho) : parser :=
  let checked p := p_not_after (p_not_after p (env (nm "Bu"))) (env (nm "Zei")) in
  match k with
  | KRaw => checked (p_sel s)
  | KNoIndicators => p_map (node name) (checked (p_tuple [p_many0 (env (nm "Bahe")); p_sel s]))
  | KSingle => p_map (node name) (checked (p_tuple [p_many0 (env (nm "Bahe")); p_sel s;
                                                   env (TyOption (TyRef (nm "Indicators")))]))
  end.

(** Parse for LohuSumti, cst/rules/mod.rs:776-793; the value keeps the pair
    (inner, lehu), which the tree does not show *)
Definition p_lohu_sumti : parser :=
  p_map (node "LohuSumti")
    (p_tuple [env (nm "Lohu"); p_cut (p_many_till (env (nm "Token")) (env (nm "Lehu")))]).

(** The [Parse] impls of the crate: cst/parse_trait.rs:12-62 (references,
    options, tuples, [Token], [Span]), cst/rules/selmaho.rs (token types, [Bu]),
    cst/rules/mod.rs:776 (LohuSumti), and the derived ones. *)
Definition impl (t : ty) : derived :=
  match t with
  | TyRef t => Parser (env t)
  | TyOption t => Parser (p_opt (env t))
  | TyTuple l => Parser (p_tuple (map env l))
  | TySlice _ => Rejected
  | TyName n args =>
      if String.eqb n "Token" then Parser p_token
      else if String.eqb n "Span" then Parser p_span
      else if String.eqb n "Bu" then Parser (p_sel S_Bu)
      else if String.eqb n "LohuSumti" then Parser p_lohu_sumti
      else match assoc n token_types with
           | Some (k, s) => Parser (p_token_type k n s)
           | None =>
               match assoc n aliases with
               | Some t => Parser (env t)
               | None =>
                   match find_decl n with
                   | Some d => match instantiate d args with
                               | Some d' => derive_parse env crate_with crate_container_with crate_cond d'
                               | None => Rejected
                               end
                   | None => Rejected
                   end
               end
           end
  end.
End Impl.

(** * The types the parser is instantiated at *)

Definition attr_types (l : list pattr) : list ty :=
  flat_map (fun a => match a with ANot t | ANotAfter t => [t] | _ => [] end) l.
Definition has_with (l : list pattr) : bool := existsb (fun a => match a with AWith _ => true | _ => false end) l.
Definition field_types (f : field) : list ty :=
  (if has_with (f_attrs f) then elem_type (f_ty f) else f_ty f) :: attr_types (f_attrs f).
Definition fields_list (fs : fields) : list field := match fs with Named l | Unnamed l => l | Unit => [] end.
Definition decl_types (d : decl) : list ty :=
  attr_types (d_attrs d) ++
  match d_data d with
  | DStruct fs => flat_map field_types (fields_list fs)
  | DEnum vs => flat_map (fun v => flat_map field_types (fields_list (v_fields v))) vs
  | DUnion => []
  end.

(** the types whose [parse] the impl of [t] calls *)
Definition mentions (t : ty) : list ty :=
  match t with
  | TyRef t | TyOption t => [t]
  | TyTuple l => l
  | TySlice _ => []
  | TyName n args =>
      if String.eqb n "Token" then []
      else if String.eqb n "Span" then []
      else if String.eqb n "Bu" then []
      else if String.eqb n "LohuSumti" then [nm "Lohu"; nm "Token"; nm "Lehu"]
      else match assoc n token_types with
           | Some (k, s) => [nm "Bu"; nm "Zei"; nm "Bahe"; TyOption (TyRef (nm "Indicators"))]
           | None =>
               match assoc n aliases with
               | Some t => [t]
               | None =>
                   match find_decl n with
                   | Some d => match instantiate d args with Some d' => decl_types d' | None => [] end
                   | None => []
                   end
               end
           end
  end.

(** the types reached from [Root] *)
Inductive used : ty -> Prop :=
| used_root : used (nm "Root")
| used_step t t' : used t -> In t' (mentions t) -> used t'.

(** [env] gives every type the parser its impl says *)
Definition implements (env : ty -> parser) : Prop :=
  forall t, used t -> exists p, impl env t = Parser p /\ forall i, env t i = p i.

(** Cst::parse, cst/mod.rs:23-39, from [Root::parse] *)
Definition parse_root (env : ty -> parser) (toks : list token) : outcome (val + werror) :=
  match env (nm "Root") toks with
  | COut => Diverge
  | COk [] root => Ret (inl root)
  | COk rest _ => Ret (inr (mkerr rest (Nom KEof)))
  | CErr e | CFail e => Ret (inr e)
  end.

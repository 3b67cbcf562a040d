(** CstTotal.v -- the grammar of CstRules.v is well founded: parsing always
    terminates.  The tables are computed; the kernel checks [cst_ok]. *)
From Verif Require Import Base Span Selmaho Lex Cst CstRules CstApi CstMeta.
From Coq Require Import Lia Arith.

Definition cnt_idx (x : cnt) : nat :=
  match x with
  | G_Bu => 0 | G_Bahe => 1 | G_Zei => 2 | G_Frees => 3 | G_Text => 4 | G_Paragraphs => 5 |
  G_Paragraph => 6 | G_ParagraphItem => 7 | G_Fragment => 8 | G_Sentences1 => 9 | G_Sentences3
  => 10 | G_ParagraphSeparator => 11 | G_SentenceSeparator => 12 | G_ConnectedSentenceSeparator
  => 13 | G_CloseSentenceSeparator => 14 | G_Sentence => 15 | G_SentenceTail => 16 |
  G_SentenceTail1 => 17 | G_SentenceTail1After => 18 | G_SentenceTail2 => 19 |
  G_SentenceTail2Connective => 20 | G_SentenceTail2After => 21 | G_SentenceTail3 => 22 |
  G_SentenceTail3After => 23 | G_SentenceTail4 => 24 | G_GekSentence => 25 | G_Subsentence =>
  26 | G_Args => 27 | G_TailArgs => 28 | G_Prenex => 29 | G_Arg => 30 | G_PeheConnective => 31
  | G_Arg3 => 32 | G_Termset => 33 | G_Selbri => 34 | G_SelbriBefore => 35 | G_Selbri1 => 36 |
  G_Selbri2 => 37 | G_Selbri3 => 38 | G_Selbri4 => 39 | G_Selbri5 => 40 | G_Selbri6 => 41 |
  G_TanruUnit => 42 | G_TanruUnit1 => 43 | G_BeforeTanruUnit => 44 | G_BoundArguments => 45 |
  G_TanruUnit2 => 46 | G_ZeiClause => 47 | G_ZeiBuInner => 48 | G_ZeiTail => 49 | G_Tag => 50 |
  G_TagValue => 51 | G_TagWord => 52 | G_TimeSpaceCaha => 53 | G_Time => 54 | G_TimeOffset =>
  55 | G_TimeDuration => 56 | G_IntervalProperty => 57 | G_Space => 58 | G_SpaceOffset => 59 |
  G_SpaceInterval => 60 | G_SpaceIntervalProperty => 61 | G_SpaceMotion => 62 | G_Sumti => 63 |
  G_Sumti1 => 64 | G_VuhoRelative => 65 | G_RelativeClauses => 66 | G_RelativeClause => 67 |
  G_GoiRelativeClause => 68 | G_NoiRelativeClause => 69 | G_Sumti3 => 70 | G_Sumti3ConnectedPre
  => 71 | G_Sumti4 => 72 | G_Quantifier => 73 | G_Number => 74 | G_NumberRest => 75 |
  G_LerfuString => 76 | G_MiscNumbers => 77 | G_LerfuWord => 78 | G_Lerfu => 79 | G_BuInner =>
  80 | G_SumtiComponent1 => 81 | G_LohuSumti => 82 | G_LuSumti => 83 | G_ModifiedSumti => 84 |
  G_SumtiModifier => 85 | G_GadriSumti => 86 | G_Gadri => 87 | G_GadriSumtiPre => 88 |
  G_GadriSumtiContents => 89 | G_LaSumti => 90 | G_ZoSumti => 91 | G_ZoiSumti => 92 |
  G_ZoiDelimiter => 93 | G_ZoiText => 94 | G_Free => 95 | G_Vocative => 96 | G_SeiTail => 97 |
  G_VocativeWords => 98 | G_VocativeValue => 99 | G_Subscript => 100 | G_SubscriptValue => 101
  | G_Indicators => 102 | G_Indicator => 103 | G_Guhek => 104 | G_Interval => 105 | G_Joik =>
  106 | G_Gik => 107 | G_Gek => 108 | G_JoikJek => 109 | G_JoikEk => 110 | G_Expression => 111
  | G_ReversePolish => 112 | G_RPTail => 113 | G_Expression1 => 114 | G_ForethoughtExpression
  => 115 | G_Operand => 116 | G_Operand1 => 117 | G_Operand2 => 118 | G_Operand2ConnectedPre =>
  119 | G_Operand3 => 120 | G_Operator => 121 | G_Operator1 => 122 | G_Operator2 => 123 |
  G_Operator3 => 124 | G_OperatorComponent => 125 | G_OperatorComponentPre => 126 |
  G_OperatorComponent1 => 127 | G_Ek => 128 | G_Jek => 129 | G_Gihek => 130
  end%nat.

Definition clook {A} (d : A) (l : list A) (x : cnt) : A := nth (cnt_idx x) l d.

Fixpoint iter {A} (k : nat) (f : A -> A) (a : A) : A :=
  match k with O => a | S k => iter k f (f a) end.

Definition cnn_step (tbl : list bool) : list bool :=
  map (fun x => nonnull (clook true tbl) (crule x)) all_cnts.
Definition cnn_table : list bool :=
  Eval vm_compute in iter 40 cnn_step (map (fun _ => true) all_cnts).
Definition cnn : cnt -> bool := clook true cnn_table.

Definition cne_step (tbl : list bool) : list bool :=
  map (fun x => noerr cnn (clook true tbl) (crule x)) all_cnts.
Definition cne_table : list bool :=
  Eval vm_compute in iter 40 cne_step (map (fun _ => true) all_cnts).
Definition cne : cnt -> bool := clook true cne_table.

Definition cnd_step (tbl : list nat) : list nat :=
  map (fun x => need cnn (clook 0%nat tbl) (crule x)) all_cnts.
Definition cnd_table : list nat :=
  Eval vm_compute in iter 130 cnd_step (map (fun _ => 0%nat) all_cnts).
Definition cnd : cnt -> nat := clook 0%nat cnd_table.

Lemma cst_ok : grammar_ok crule cnn cne cnd CST_D.
Proof.
  intros x. destruct x; (split; [intros H; first [exact H | vm_compute; reflexivity] | split;
    [intros H; first [exact H | vm_compute; reflexivity] | split; [apply Nat.leb_le; vm_compute; reflexivity | vm_compute; reflexivity]]]).
Qed.

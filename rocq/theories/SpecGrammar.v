(** SpecGrammar.v -- a context-free grammar of everyday Lojban, written down
    independently of the parser; specification only (C65).  Terminators are
    written out, except where the comments say that they may be missing. *)
From Verif Require Import Base Selmaho Lex SpecGen.

Inductive part :=
| Text | Paragraphs | Paragraph | Items | Item | Joint | Attached | Statement | Sentence | Bridi | Bridi1
| Tail | CuTail | Tensed | TensedSimple | MoreTails | Gihek | Simple | KelessTail | NextTail | Brivla | Terms
| MoreTerms | OpenTerms | Open | OpenSumti | OpenConnected | OpenOperand | NuTerms | TaggedTerms | Term | Tag
| Sumti | Connected | MoreConnected | Ek | Operand | BoOperands | Alternatives | Plain | Base | Relative
| MoreRelative | Clause | MoreNames | Quantifier | Number | Digits | Selbri | TensedSelbri | Befores | MoreCo
| Tanru | MoreJoined | Joined | BoJoined | Conn | Jek | Bonded | MoreBo | Unit | BeSelbri | BeTanru | BeUnit
| Links | Prefixes | Core.

Definition all_parts : list part :=
  [Text; Paragraphs; Paragraph; Items; Item; Joint; Attached; Statement; Sentence; Bridi; Bridi1; Tail;
   CuTail; Tensed; TensedSimple; MoreTails; Gihek; Simple; KelessTail; NextTail; Brivla; Terms; MoreTerms;
   OpenTerms; Open; OpenSumti; OpenConnected; OpenOperand; NuTerms; TaggedTerms; Term; Tag; Sumti; Connected;
   MoreConnected; Ek; Operand; BoOperands; Alternatives; Plain; Base; Relative; MoreRelative; Clause;
   MoreNames; Quantifier; Number; Digits; Selbri; TensedSelbri; Befores; MoreCo; Tanru; MoreJoined; Joined;
   BoJoined; Conn; Jek; Bonded; MoreBo; Unit; BeSelbri; BeTanru; BeUnit; Links; Prefixes; Core].

(** [`s]: a word of selma'o [s]; [#a]: the construct [a]. *)
Notation "'`' s" := (Word s) (at level 0, s at level 0).
Notation "'#' a" := (Part a) (at level 0, a at level 0).

Definition productions (a : part) : list (list (sym part)) :=
  match a with
  (* paragraphs, separated by ni'o *)
  | Text => [[#Paragraph; #Paragraphs]]
  | Paragraphs => [[]; [`S_Niho; #Paragraph; #Paragraphs]]
  (* sentences, separated by .i *)
  | Paragraph => [[#Item; #Items]]
  | Items => [[]; [`S_I; #Item; #Items]]
  (* a sentence, with or without a prenex; others may be attached with .i bo, or connected with .i je *)
  | Item => [[#Number]; [#Sentence; #Attached; #Joint]; [`S_Tuhe; #Paragraph; #Paragraphs; `S_Tuhu; #Attached; #Joint];
      [#Terms; `S_Zohu; #Statement; #Attached; #Joint]; [#OpenTerms; `S_Zohu; #Statement; #Attached; #Joint]]
  | Joint => [[]; [`S_I; `S_Ja; #Statement; #Attached; #Joint]]
  | Attached => [[]; [`S_I; `S_Bo; #Statement; #Attached]]
  (* a group of paragraphs, a bridi, or just some terms *)
  | Statement => [[`S_Tuhe; #Paragraph; #Paragraphs; `S_Tuhu]; [#Sentence]]
  | Sentence => [[#Terms; #Tail]; [#TaggedTerms; #KelessTail]; [#OpenTerms; `S_Cu; #CuTail]; [#NuTerms; `S_Cu; #CuTail];
      [#Terms; `S_Cu; #CuTail]; [#Terms; #Selbri; #NuTerms]; [#OpenTerms; `S_Cu; #Selbri; #NuTerms];
      [#Terms; `S_Cu; #Selbri; #NuTerms]; [#Term; #Terms]]
  (* a subordinate bridi, with or without a prenex *)
  | Bridi => [[#Bridi1]; [#Terms; `S_Zohu; #Bridi1]; [#OpenTerms; `S_Zohu; #Bridi1]]
  | Bridi1 => [[#Terms; #Tail]; [#TaggedTerms; #KelessTail]; [#OpenTerms; `S_Cu; #CuTail]; [#NuTerms; `S_Cu; #CuTail];
      [#Terms; `S_Cu; #CuTail]]
  (* one or more bridi tails connected with gi'e and the like; vau is optional *)
  | Tail => [[#Simple]; [#Simple; #Gihek; #NextTail; #MoreTails]; [#Simple; #Gihek; `S_Ke; #Tail; `S_Kehe; #Terms];
      [#Simple; #Gihek; `S_Ke; #Tail; `S_Kehe; #Terms; `S_Vau]]
  | CuTail => [[#Tail]; [#Tensed]]
  | Tensed => [[#TensedSimple]; [#TensedSimple; #Gihek; #NextTail; #MoreTails]]
  | TensedSimple => [[#TensedSelbri; #Terms]; [#TensedSelbri; #Terms; `S_Vau]; [#TensedSelbri; #OpenTerms]]
  | MoreTails => [[]; [#Gihek; #NextTail; #MoreTails]]
  | Gihek => [[`S_Giha]; [`S_Na; `S_Giha]; [`S_Se; `S_Giha]]
  | Simple => [[#Selbri; #Terms]; [#Selbri; #Terms; `S_Vau]; [#Selbri; #OpenTerms]]
  | KelessTail => [[#Brivla; #MoreBo; #BoJoined; #Conn; #MoreJoined; #MoreCo; #Terms];
      [#Brivla; #MoreBo; #BoJoined; #Conn; #MoreJoined; #MoreCo; #Terms; `S_Vau];
      [#Brivla; #MoreBo; #BoJoined; #Conn; #MoreJoined; #MoreCo; #OpenTerms]]
  | NextTail => [[#KelessTail]; [`S_Na; #Befores; #Tanru; #MoreCo; #Terms]; [`S_Na; #Befores; #Tanru; #MoreCo; #Terms; `S_Vau];
      [`S_Na; #Befores; #Tanru; #MoreCo; #OpenTerms]]
  | Brivla => [[`S_Gismu]; [`S_Lujvo]; [`S_Fuhivla]]
  (* ku may be missing before another term *)
  | Terms => [[]; [#Term; #Terms]; [#Open; #MoreTerms]]
  | MoreTerms => [[#Term; #Terms]; [#Open; #MoreTerms]]
  (* the last ku is missing: allowed before cu, a tense, zo'u, and at the end of a bridi without vau *)
  | OpenTerms => [[#Open]; [#Open; #OpenTerms]; [#Term; #OpenTerms]]
  | Open => [[#OpenSumti]; [`S_Fa; #OpenSumti]; [#Tag; #OpenSumti]]
  | OpenSumti => [[#OpenOperand]; [#OpenOperand; #OpenConnected]; [#Operand; #OpenConnected]]
  | OpenConnected => [[#Ek; #OpenOperand]; [#Ek; #OpenOperand; #OpenConnected]; [#Ek; #Operand; #OpenConnected]]
  | OpenOperand => [[`S_Le; #Selbri]; [`S_Le; #Selbri; #Relative]; [`S_Le; #Base; #Selbri]; [`S_Le; #Quantifier; #Selbri];
      [`S_Le; #TensedSelbri]; [`S_La; #Selbri]; [#Quantifier; #Selbri]; [#Quantifier; `S_Le; #Selbri]]
  (* the last kei ku are missing: allowed before cu and at the end of a main bridi *)
  | NuTerms => [[`S_Le; `S_Nu; #Bridi]; [`S_Le; #Selbri; `S_Noi; #Bridi]; [`S_Le; #BeSelbri]; [#Open; #NuTerms]; [#Term; #NuTerms]]
  (* the last one is a tense of the following selbri; ku may be missing before it *)
  | TaggedTerms => [[#Tag]; [#Open; #TaggedTerms]; [#Term; #TaggedTerms]]
  | Term => [[#Sumti]; [`S_Fa; #Sumti]; [#Tag; #Sumti]; [#Tag; `S_Ku]; [`S_Na; `S_Ku]]
  | Tag => [[`S_Pu]; [`S_Pu; `S_Zaho]; [`S_Zaho]; [`S_Caha]; [`S_Pu; `S_Caha]; [`S_Bai]; [`S_Se; `S_Bai]; [`S_Pu; `S_Zi]; [`S_Zi];
      [`S_Va]; [`S_Faha]; [`S_Tahe]; [`S_Zeha]; [`S_Pu; `S_Zeha]; [`S_Pu; `S_Tahe]; [`S_Va; `S_Faha]; [`S_Pu; `S_Faha]; [`S_Ki];
      [`S_Pu; `S_Ki]; [`S_Cuhe]]
  (* ku may be missing before a connective *)
  | Sumti => [[#Operand; #BoOperands; #Connected]; [#Operand; #BoOperands; #Connected; `S_Vuho; #Relative]; [#OpenOperand; #MoreConnected]]
  | Connected => [[]; [#Ek; `S_Ke; #Sumti; `S_Kehe; #Connected]; [#Ek; #Operand; #BoOperands; #Connected]; [#Ek; #OpenOperand; #MoreConnected]]
  | MoreConnected => [[#Ek; #Operand; #BoOperands; #Connected]; [#Ek; #OpenOperand; #MoreConnected]]
  | Ek => [[`S_A]; [`S_Na; `S_A]; [`S_Se; `S_A]; [`S_Joi]; [`S_Se; `S_Joi]]
  | Operand => [[#Alternatives; #Plain]]
  | BoOperands => [[]; [#Ek; `S_Bo; #Operand; #BoOperands]]
  | Alternatives => [[]; [`S_Ga; #Sumti; `S_Gi; #Alternatives]]
  | Plain => [[#Base]; [#Base; #Relative]; [#Quantifier; #Base]; [#Quantifier; #Base; #Relative]; [#Quantifier; #Selbri; `S_Ku];
      [#Quantifier; #Selbri; `S_Ku; #Relative]; [`S_By; #Digits; `S_Boi]]
  | Base => [[`S_Koha]; [`S_La; `S_Cmevla; #MoreNames]; [`S_Le; #Selbri; `S_Ku]; [`S_Le; #BeSelbri; `S_Ku]; [`S_La; #Selbri; `S_Ku];
      [`S_Le; #TensedSelbri; `S_Ku]; [`S_Le; #Selbri; #Relative; `S_Ku]; [`S_Le; #Base; #Selbri; `S_Ku];
      [`S_Le; #Quantifier; #Selbri; `S_Ku]; [`S_Le; #Number; `S_Boi; #Sumti; `S_Ku]; [`S_Lu; #Text; `S_Lihu];
      [`S_Li; `S_Pa; #Digits; `S_Loho]; [`S_Lahe; #Sumti; `S_Luhu]]
  | Relative => [[#Clause; #MoreRelative]]
  | MoreRelative => [[]; [`S_Zihe; #Clause; #MoreRelative]]
  | Clause => [[`S_Noi; #Bridi; `S_Kuho]; [`S_Goi; #Term; `S_Gehu]]
  | MoreNames => [[]; [`S_Cmevla; #MoreNames]]
  | Quantifier => [[#Number]; [#Number; `S_Boi]]
  | Number => [[`S_Pa; #Digits]]
  | Digits => [[]; [`S_Pa; #Digits]]
  | Selbri => [[#Befores; #Tanru; #MoreCo]]
  | TensedSelbri => [[#Tag; #Befores; #Tanru; #MoreCo]]
  | Befores => [[]; [`S_Na; #Befores]]
  | MoreCo => [[]; [`S_Co; #Tanru; #MoreCo]]
  | Tanru => [[#Joined; #MoreJoined]]
  | MoreJoined => [[]; [#Joined; #MoreJoined]]
  | Joined => [[`S_Guha; #Selbri; `S_Gi; #Bonded; #Conn]; [#Bonded; #BoJoined; #Conn]]
  | BoJoined => [[]; [#Jek; `S_Bo; #Bonded; #BoJoined]]
  | Conn => [[]; [#Jek; #Bonded; #BoJoined; #Conn]]
  | Jek => [[`S_Ja]; [`S_Na; `S_Ja]; [`S_Se; `S_Ja]; [`S_Joi]; [`S_Se; `S_Joi]]
  | Bonded => [[#Unit; #MoreBo]]
  | MoreBo => [[]; [`S_Bo; #Unit; #MoreBo]]
  | Unit => [[#Prefixes; #Core]; [#Prefixes; #Core; `S_Be; #Term; #Links; `S_Beho]]
  (* the last be'o is missing: before ku, cu and at the end of a main bridi *)
  | BeSelbri => [[#Befores; #BeUnit]; [#Befores; #Joined; #BeTanru]]
  | BeTanru => [[#BeUnit]; [#Joined; #BeTanru]]
  | BeUnit => [[#Prefixes; #Core; `S_Be; #Term; #Links]]
  | Links => [[]; [`S_Bei; #Term; #Links]]
  | Prefixes => [[]; [`S_Se; #Prefixes]; [`S_Nahe; #Prefixes]; [`S_Jai; #Prefixes]]
  | Core => [[`S_Gismu]; [`S_Lujvo]; [`S_Fuhivla]; [`S_Goha]; [`S_Goha; `S_Raho]; [`S_Ke; #Tanru; `S_Kehe]; [`S_Nu; #Bridi; `S_Kei];
      [`S_Me; #Sumti; `S_Mehu]]
  end.

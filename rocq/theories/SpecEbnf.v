(** SpecEbnf.v -- an EBNF grammar of Lojban, after the one of the reference grammar (CLL, chapter 21), with its
    names and notation; specification only (C68).  Places where the parser is more liberal than the reference
    grammar are marked (+); what the parser does not implement is left out. *)
From Verif Require Import Base Selmaho Lex Cst SpecCst.

(** The constructs (the names of CLL 21, except where marked). *)
Inductive rule :=
| text | paragraphs | paragraph | statement | statement_1 | statement_2 | statement_3 | fragment | prenex | sentence | subsentence
| bridi_tail | bridi_tail_1 | bridi_tail_2 | bridi_tail_3 | gek_sentence | tail_terms | terms | connected_terms | terms_1 | terms_2 | term | termset
| sumti | sumti_1 | sumti_3 | sumti_4 | sumti_5 | sumti_6 | sumti_tail | sumti_tail_1 | relative_clauses | relative_clause
| selbri | selbri_2 | selbri_3 | selbri_4 | selbri_5 | selbri_6 | tanru_unit | tanru_unit_1 | tanru_unit_2 | linkargs | zei_clause
| quantifier | mex | mex_1 | mex_2 | rp_expression | operator | operator_1 | operator_bo | operator_2 | mex_operator | operand | operand_2 | operand_3
| number | lerfu_string | number_or_lerfu_string | lerfu_word | lerfu
| ek | gihek | jek | joik | interval | joik_ek | joik_jek | gek | guhek | gik
| tag | tense_modal | time | time_offset | time_duration | space | space_offset | space_interval | space_int_prop | space_motion | interval_property
| free | vocative | subscript | indicators | indicator.

Inductive ebnf :=
| Tok (s : Selmaho)            (* one token *)
| AnyBut (l : list Selmaho)    (* one token of any other class *)
| Ref (r : rule)
| Eps | Seq (a b : ebnf) | Alt (a b : ebnf) | Opt (a : ebnf) | Star (a : ebnf).
Coercion Ref : rule >-> ebnf.

(** A word may be emphasised (ba'e) and may have indicators after it. *)
Definition Word (s : Selmaho) : ebnf := Seq (Star (Tok S_Bahe)) (Seq (Tok s) (Opt indicators)).
Coercion Word : Selmaho >-> ebnf.
Definition any_word : ebnf := AnyBut [].
Definition frees : ebnf := Star free.

(** The notation of CLL 21: [x] is optional; /x/ is an elidable terminator with free modifiers; # stands for free
    modifiers.  Here {x} is any number of [x], and x+ at least one.  'x is a bare token. *)
Declare Custom Entry ebnf.
Notation "<{ e }>" := (e : ebnf) (e custom ebnf at level 10, format "<{ e }>").
Notation "x y" := (Seq x y) (in custom ebnf at level 2, right associativity).
Notation "x | y" := (Alt x y) (in custom ebnf at level 5, right associativity).
Notation "[ x ]" := (Opt x) (in custom ebnf at level 0, x custom ebnf at level 10).
Notation "{ x }" := (Star x) (in custom ebnf at level 0, x custom ebnf at level 10).
Notation "( x )" := x (in custom ebnf at level 0, x custom ebnf at level 10).
Notation "/ x /" := (Seq (Opt x) frees) (in custom ebnf at level 0, x custom ebnf at level 0).
Notation "x +" := (Seq x (Star x)) (in custom ebnf at level 1, left associativity).
Notation "#" := frees (in custom ebnf at level 0).
Notation "' x" := (Tok x) (in custom ebnf at level 0, x global).
Notation "x" := x (in custom ebnf at level 0, x global).

(** Words that cannot be made into a letter with bu, or begin a zei compound. *)
Definition quotable : ebnf := AnyBut [S_Bu; S_Zei; S_Si; S_Su; S_Sa; S_Faho].
Definition ZEI : ebnf := <{ {'S_Bahe} 'S_Zei any_word }>.

Definition body (r : rule) : ebnf :=
  match r with
  | text => <{ [indicators] # [S_Niho + #] [paragraphs] [S_Faho] }>
  | paragraphs => <{ paragraph { S_Niho + # paragraph } }>
  (* (+) an item may be missing anywhere *)
  | paragraph => <{ [statement | fragment] { S_I # [statement | fragment] } }>
  | statement => <{ statement_1 | prenex statement }>
  | statement_1 => <{ statement_2 { S_I joik_jek # statement_2 } }>
  | statement_2 => <{ statement_3 [S_I [joik_jek] [tag] S_Bo # statement_2] }>
  | statement_3 => <{ sentence | [tag] S_Tuhe # paragraphs /S_Tuhu/ }>
  | fragment => <{ ek # | jek # | joik # | gihek # | quantifier | S_Na # }>
  (* (+) terms may be missing *)
  | prenex => <{ [terms] S_Zohu # }>
  (* (+) just terms, or nothing (CLL: fragments); cu without terms *)
  | sentence => <{ [terms] [[S_Cu] # bridi_tail] }>
  | subsentence => <{ [terms] [S_Cu] # bridi_tail | prenex subsentence }>
  | bridi_tail => <{ bridi_tail_1 [gihek [tag] S_Ke # bridi_tail /S_Kehe/ tail_terms] }>
  | bridi_tail_1 => <{ bridi_tail_2 { gihek # bridi_tail_2 tail_terms } }>
  | bridi_tail_2 => <{ bridi_tail_3 { gihek [tag] S_Bo # bridi_tail_3 tail_terms } }>
  | bridi_tail_3 => <{ selbri tail_terms | gek_sentence }>
  | gek_sentence => <{ gek subsentence gik subsentence tail_terms | [tag] S_Ke # gek_sentence /S_Kehe/ | S_Na # gek_sentence }>
  | tail_terms => <{ [terms] /S_Vau/ }>
  | terms => <{ connected_terms + }>
  (* (+) not in CLL: terms connected like sumti *)
  | connected_terms => <{ terms_1 { joik_ek terms_1 | joik_ek [tag] S_Ke # connected_terms /S_Kehe/ } }>
  | terms_1 => <{ terms_2 { S_Pehe # joik_jek terms_2 } }>
  | terms_2 => <{ term { S_Cehe # term } }>
  | term => <{ [S_Fa #] sumti | tag [sumti | S_Ku #] | termset | S_Na S_Ku # }>
  (* (+) nu'i may be missing before gek; terms may be missing *)
  | termset => <{ gek [terms] gik [terms] | S_Nuhi # gek [terms] /S_Nuhu/ gik [terms] /S_Nuhu/ | S_Nuhi # [terms] /S_Nuhu/ }>
  | sumti => <{ sumti_1 [S_Vuho # relative_clauses] }>
  (* (+) groups with ke can be repeated, and anything may follow *)
  | sumti_1 => <{ sumti_3 { joik_ek sumti_3 | joik_ek [tag] S_Ke # sumti /S_Kehe/ } }>
  | sumti_3 => <{ sumti_4 [joik_ek [tag] S_Bo # sumti_3] }>
  | sumti_4 => <{ sumti_5 | gek sumti gik sumti_4 }>
  | sumti_5 => <{ [quantifier] sumti_6 # [relative_clauses] | quantifier selbri /S_Ku/ [relative_clauses] }>
  | sumti_6 => <{ S_Koha | (S_Le | S_La) # sumti_tail [S_Ku] | S_La S_Cmevla + | 'S_Lohu {any_word} S_Lehu | 'S_Lu text [S_Lihu]
                | (S_Lahe | S_Nahe S_Bo) # [relative_clauses] sumti [S_Luhu] | lerfu_string [S_Boi]
                | 'S_Zo any_word | 'S_Zoi any_word any_word any_word | S_Li # mex [S_Loho] }>
  (* (+) possessor and relative clauses are independent *)
  | sumti_tail => <{ [sumti_6 #] [relative_clauses] sumti_tail_1 }>
  | sumti_tail_1 => <{ [quantifier] selbri [relative_clauses] | quantifier sumti }>
  | relative_clauses => <{ relative_clause { S_Zihe # relative_clause } }>
  | relative_clause => <{ S_Goi # connected_terms /S_Gehu/ | S_Noi # subsentence /S_Kuho/ }>
  (* (+) several tags *)
  | selbri => <{ tag selbri | S_Na # selbri | selbri_2 }>
  | selbri_2 => <{ selbri_3 [S_Co # selbri_2] }>
  | selbri_3 => <{ selbri_4 + }>
  (* (+) also jek before ke *)
  | selbri_4 => <{ selbri_5 { joik_jek selbri_5 | joik_jek [tag] S_Ke # selbri_3 /S_Kehe/ } }>
  | selbri_5 => <{ selbri_6 [joik_jek [tag] S_Bo # selbri_5] }>
  | selbri_6 => <{ tanru_unit [S_Bo # selbri_6] | [S_Nahe] # guhek selbri gik selbri_6 }>
  | tanru_unit => <{ tanru_unit_1 { S_Cei # tanru_unit_1 } }>
  | tanru_unit_1 => <{ tanru_unit_2 [linkargs] }>
  | tanru_unit_2 => <{ S_Gismu # | S_Lujvo # | S_Fuhivla # | zei_clause # | S_Goha [S_Raho] # | S_Ke # selbri_3 /S_Kehe/
                     | S_Me # sumti /S_Mehu/ [S_Moi #] | number_or_lerfu_string S_Moi # | S_Nuha # operator
                     | S_Se # tanru_unit_2 | S_Jai # [tag] tanru_unit_2 | S_Nahe # tanru_unit_2
                     | S_Nu [S_Nai] # { joik_jek S_Nu [S_Nai] # } subsentence /S_Kei/ }>
  | linkargs => <{ S_Be # connected_terms { S_Bei # connected_terms } /S_Beho/ }>
  (* a word, then zei words and bu, with a zei word last *)
  | zei_clause => <{ {'S_Bahe} quotable { {ZEI} 'S_Bu + } ZEI + [indicators] }>
  | quantifier => <{ number [S_Boi] # | S_Vei # mex /S_Veho/ }>
  | mex => <{ mex_1 { operator mex_1 } | S_Fuha # rp_expression }>
  | mex_1 => <{ mex_2 [S_Bihe # operator mex_1] }>
  | mex_2 => <{ operand | [S_Peho #] operator mex_2 + /S_Kuhe/ }>
  | rp_expression => <{ operand { rp_expression operator } }>
  | operator => <{ operator_1 { joik_jek operator_1 | joik_jek [tag] S_Ke # operator /S_Kehe/ } }>
  | operator_1 => <{ operator_bo | [S_Nahe] # guhek operator_1 gik operator_1 }>
  | operator_bo => <{ operator_2 [joik_jek [tag] S_Bo # operator_bo] }>
  | operator_2 => <{ mex_operator | S_Ke # operator S_Kehe # }>
  | mex_operator => <{ S_Se # mex_operator | S_Nahe # mex_operator | S_Maho # mex /S_Tehu/ | S_Nahu # selbri /S_Tehu/ | S_Vuhu # }>
  | operand => <{ operand_2 { joik_ek operand_2 | joik_ek [tag] S_Ke # operand /S_Kehe/ } }>
  | operand_2 => <{ operand_3 [joik_ek [tag] S_Bo # operand_2] }>
  | operand_3 => <{ number_or_lerfu_string [S_Boi] # | S_Vei # mex /S_Veho/ | S_Nihe # selbri /S_Tehu/ | S_Mohe # sumti /S_Tehu/
                  | S_Johi # mex_2 + /S_Tehu/ | gek operand gik operand_3 | (S_Lahe | S_Nahe S_Bo) operand [S_Luhu] }>
  | number => <{ S_Pa { S_Pa | lerfu_word } }>
  | lerfu_string => <{ lerfu_word { S_Pa | lerfu_word } }>
  | number_or_lerfu_string => <{ (S_Pa | lerfu_word) + }>
  | lerfu_word => <{ lerfu | S_Lau lerfu | S_Tei lerfu_string S_Foi }>
  | lerfu => <{ S_By | ['S_Bahe] quotable 'S_Bu + {indicators} }>
  | ek => <{ [S_Na] [S_Se] S_A [S_Nai] }>
  | gihek => <{ [S_Na] [S_Se] S_Giha [S_Nai] }>
  | jek => <{ [S_Na] [S_Se] S_Ja [S_Nai] }>
  | joik => <{ [S_Se] S_Joi [S_Nai] | interval | S_Gaho interval S_Gaho }>
  | interval => <{ [S_Se] S_Bihi [S_Nai] }>
  | joik_ek => <{ joik # | ek # }>
  | joik_jek => <{ joik | jek }>
  | gek => <{ [S_Se] S_Ga [S_Nai] # | joik S_Gi # | tag gik }>
  | guhek => <{ [S_Se] S_Guha [S_Nai] # }>
  | gik => <{ S_Gi [S_Nai] # }>
  | tag => <{ tense_modal { joik_jek tense_modal } }>
  (* (+) times, places and ca'a in any order and number *)
  | tense_modal => <{ [S_Nahe] [S_Se] S_Bai [S_Nai] [S_Ki] # | [S_Nahe] (time | space | S_Caha) + [S_Ki] # | S_Ki # | S_Cuhe #
                    | S_Fiho # selbri /S_Fehu/ }>
  | time => <{ S_Zi {time_offset} [time_duration] {interval_property} | time_offset + [time_duration] {interval_property}
             | time_duration {interval_property} | interval_property + }>
  | time_offset => <{ S_Pu [S_Nai] [S_Zi] }>
  | time_duration => <{ S_Zeha [S_Pu [S_Nai]] }>
  | space => <{ S_Va {space_offset} [space_interval] [space_motion] | space_offset + [space_interval] [space_motion]
              | space_interval [space_motion] | space_motion }>
  | space_offset => <{ S_Faha [S_Nai] [S_Va] }>
  | space_interval => <{ (S_Veha | S_Viha | S_Veha S_Viha) [S_Faha [S_Nai]] {space_int_prop} | space_int_prop + }>
  | space_int_prop => <{ S_Fehe interval_property }>
  | space_motion => <{ S_Mohi space_offset }>
  | interval_property => <{ number S_Roi [S_Nai] | S_Tahe [S_Nai] | S_Zaho [S_Nai] }>
  (* (+) sei without a selbri *)
  | free => <{ S_Sei # [terms] [[S_Cu] # selbri] [S_Sehu #] | S_Soi # sumti [sumti] [S_Sehu]
             | vocative [relative_clauses] (selbri | S_Cmevla + | [sumti]) [relative_clauses] [S_Dohu]
             | number_or_lerfu_string S_Mai | S_To text [S_Toi] | subscript }>
  | vocative => <{ (S_Coi [S_Nai]) + [S_Doi] | S_Doi }>
  | subscript => <{ S_Xi # (number_or_lerfu_string [S_Boi] # | S_Vei # mex /S_Veho/) # }>
  | indicators => <{ [{'S_Bahe} 'S_Fuhe] indicator + }>
  | indicator => <{ S_Ui | S_Cai | S_Nai | S_Daho | S_Fuho | S_Y }>
  end.

(** The tokens that an expression generates. *)
Inductive generates : ebnf -> list token -> Prop :=
| gen_tok s t : selmaho t = s -> generates (Tok s) [t]
| gen_but l t : ~ In (selmaho t) l -> generates (AnyBut l) [t]
| gen_ref r m : generates (body r) m -> generates (Ref r) m
| gen_eps : generates Eps []
| gen_seq a b m1 m2 : generates a m1 -> generates b m2 -> generates (Seq a b) (m1 ++ m2)
| gen_alt_l a b m : generates a m -> generates (Alt a b) m
| gen_alt_r a b m : generates b m -> generates (Alt a b) m
| gen_opt_no a : generates (Opt a) []
| gen_opt a m : generates a m -> generates (Opt a) m
| gen_star_no a : generates (Star a) []
| gen_star a m1 m2 : generates a m1 -> generates (Star a) m2 -> generates (Star a) (m1 ++ m2).

(** The construct that each kind of node should be. *)
Definition constructs : list (string * rule) :=
 [("Text", text); ("Paragraphs", paragraphs); ("Paragraph", paragraph); ("Fragment", fragment); ("Sentences1", statement); ("Sentences3", statement_3);
  ("Sentence", sentence); ("Subsentence", subsentence); ("SentenceTail1", bridi_tail); ("SentenceTail2", bridi_tail_1); ("SentenceTail3", bridi_tail_2);
  ("SentenceTail4", bridi_tail_3); ("GekSentence", gek_sentence); ("Prenex", prenex); ("Arg", connected_terms); ("Arg3", term); ("Termset", termset);
  ("Sumti", sumti); ("Sumti1", sumti_1); ("Sumti3", sumti_4); ("Sumti4", sumti_5); ("SumtiComponent1", sumti_6); ("GadriSumti", sumti_6); ("LaSumti", sumti_6);
  ("LohuSumti", sumti_6); ("LuSumti", sumti_6); ("ModifiedSumti", sumti_6); ("ZoSumti", sumti_6); ("ZoiSumti", sumti_6);
  ("GadriSumtiContents", sumti_tail_1); ("RelativeClauses", relative_clauses);
  ("RelativeClause", relative_clause); ("GoiRelativeClause", relative_clause); ("NoiRelativeClause", relative_clause); ("Selbri", selbri); ("Selbri1", selbri_2); ("Selbri2", selbri_3); ("Selbri3", selbri_4); ("Selbri4", selbri_5); ("Selbri5", selbri_6);
  ("Selbri6", selbri_6); ("TanruUnit", tanru_unit); ("TanruUnit1", tanru_unit_1); ("TanruUnit2", tanru_unit_2); ("BoundArguments", linkargs); ("ZeiClause", zei_clause);
  ("Quantifier", quantifier); ("Expression", mex); ("Expression1", mex_2); ("ForethoughtExpression", mex_2); ("ReversePolish", rp_expression); ("Operator", operator);
  ("Operator1", operator_1); ("Operator2", operator_bo); ("Operator3", operator_2); ("OperatorComponent", mex_operator); ("OperatorComponent1", mex_operator);
  ("Operand", operand); ("Operand1", operand_2); ("Operand2", operand_3); ("Operand3", operand_3); ("Number", number); ("LerfuString", lerfu_string);
  ("MiscNumbers", number_or_lerfu_string); ("LerfuWord", lerfu_word); ("Lerfu", lerfu); ("Ek", ek); ("Gihek", gihek); ("Jek", jek); ("Joik", joik);
  ("Interval", interval); ("JoikEk", joik_ek); ("JoikJek", joik_jek); ("Gek", gek); ("Guhek", guhek); ("Gik", gik); ("Tag", term); ("TagWord", tense_modal);
  ("Time", time); ("TimeOffset", time_offset); ("TimeDuration", time_duration); ("Space", space); ("SpaceOffset", space_offset); ("SpaceInterval", space_interval);
  ("SpaceIntervalProperty", space_int_prop); ("SpaceMotion", space_motion); ("IntervalProperty", interval_property);
  ("Free", free); ("Vocative", free); ("VocativeWords", vocative); ("Subscript", subscript); ("Indicators", indicators); ("Indicator", indicator)]%string.

{
 "claims": [
  {
   "property": "C01",
   "status": "proved",
   "theorems": [
    "C01_decompose_total",
    "C01_history_total"
   ],
   "note": ""
  },
  {
   "property": "C02",
   "status": "proved",
   "theorems": [
    "C02_spans_slice"
   ],
   "note": ""
  },
  {
   "property": "C03",
   "status": "proved",
   "theorems": [
    "C03_spans_ordered"
   ],
   "note": ""
  },
  {
   "property": "C04",
   "status": "proved",
   "theorems": [
    "C04_tiled"
   ],
   "note": ""
  },
  {
   "property": "C05",
   "status": "proved",
   "theorems": [
    "C05_words_proper"
   ],
   "note": ""
  },
  {
   "property": "C06",
   "status": "proved",
   "theorems": [
    "C06_separator",
    "C06_interchangeable"
   ],
   "note": ""
  },
  {
   "property": "C07",
   "status": "proved",
   "theorems": [
    "C07_cmevla_chunk"
   ],
   "note": ""
  },
  {
   "property": "C08",
   "status": "proved",
   "theorems": [
    "C08_nodec_splits"
   ],
   "note": ""
  },
  {
   "property": "C09",
   "status": "proved",
   "theorems": [
    "C09_nodec_resumes"
   ],
   "note": ""
  },
  {
   "property": "C10",
   "status": "proved",
   "theorems": [
    "C10_fused"
   ],
   "note": ""
  },
  {
   "property": "C11",
   "status": "partial",
   "theorems": [
    "C11_size_hint_partial",
    "C11_size_hint_off_by_one",
    "C11_size_hint_refuted"
   ],
   "note": "The full statement is false of the code (C11_size_hint_refuted): after next_no_decomposition the peeked chunk may hold no word. Proved: it holds when only next was called, and is off by at most one otherwise."
  },
  {
   "property": "C12",
   "status": "proved",
   "theorems": [
    "C12_commas_irrelevant",
    "C12_trailing_comma_refuted"
   ],
   "note": "The trailing-comma case is excluded by the property; the refuted theorem shows the exclusion is needed."
  },
  {
   "property": "C13",
   "status": "proved",
   "theorems": [
    "C13_apostrophes"
   ],
   "note": ""
  },
  {
   "property": "C14",
   "status": "proved",
   "theorems": [
    "C14_alphabet"
   ],
   "note": ""
  },
  {
   "property": "C15",
   "status": "proved",
   "theorems": [
    "C15_classify_total"
   ],
   "note": ""
  },
  {
   "property": "C16",
   "status": "proved",
   "theorems": [
    "C16_known",
    "C16_unknown",
    "C16_listed_once"
   ],
   "note": ""
  },
  {
   "property": "C17",
   "status": "proved",
   "theorems": [
    "C17_flag",
    "C17_words_not_experimental",
    "C17_unknown_cmavo_experimental",
    "C17_no_delimiter"
   ],
   "note": ""
  },
  {
   "property": "C30",
   "status": "partial",
   "theorems": [
    "C30_long_cmavo_refuted",
    "C30_long_partial",
    "C30_space_unreachable"
   ],
   "note": "The full statement is false of the code (C30_long_cmavo_refuted): spellings over 16 bytes never reach the table, and one entry has a leading space. C16_known proves it up to 16 bytes."
  },
  {
   "property": "C31",
   "status": "proved",
   "theorems": [
    "C31_slice_some",
    "C31_slice_none",
    "C31_slice_parts"
   ],
   "note": ""
  },
  {
   "property": "C32",
   "status": "partial",
   "theorems": [
    "C32_overlaps_panics_refuted",
    "C32_overlaps_partial",
    "C32_commutative",
    "C32_geometric"
   ],
   "note": "The full statement is false of the code: overlaps_with computes `end - 1` and panics in debug builds on a span ending at 0 (C32_overlaps_panics_refuted). Everything else is proved."
  },
  {
   "property": "C33",
   "status": "partial",
   "theorems": [
    "C33_between_adjacent_refuted",
    "C33_between_panics_refuted",
    "C33_between_partial"
   ],
   "note": "False of the code: adjacent spans give None although they do not overlap, and the panic of overlaps_with is inherited. C33_between_partial is the exact behaviour elsewhere."
  },
  {
   "property": "C34",
   "status": "proved",
   "theorems": [
    "C34_new",
    "C34_at",
    "C34_at_overflow",
    "C34_entire_slice",
    "C34_from_embedded_slice"
   ],
   "note": ""
  },
  {
   "property": "C21",
   "status": "proved",
   "theorems": [
    "C21_lex_total"
   ],
   "note": ""
  },
  {
   "property": "C22",
   "status": "proved",
   "theorems": [
    "C22_spans"
   ],
   "note": ""
  },
  {
   "property": "C23",
   "status": "proved",
   "theorems": [
    "C23_plain",
    "C23_no_quotes"
   ],
   "note": ""
  },
  {
   "property": "C24",
   "status": "proved",
   "theorems": [
    "C24_lex_spec",
    "C24_quote",
    "C24_double_quote"
   ],
   "note": ""
  },
  {
   "property": "C25",
   "status": "partial",
   "theorems": [
    "C25_refuted",
    "C25_text_partial"
   ],
   "note": "False of the code: an empty quote has no AnyText token (C25_refuted). C25_text_partial says exactly when the token is there."
  },
  {
   "property": "C26",
   "status": "proved",
   "theorems": [
    "C26_pause_quote"
   ],
   "note": ""
  },
  {
   "property": "C27",
   "status": "proved",
   "theorems": [
    "C27_error",
    "C21_lex_total"
   ],
   "note": ""
  },
  {
   "property": "C28",
   "status": "proved",
   "theorems": [
    "C28_faho",
    "C28_continues"
   ],
   "note": ""
  },
  {
   "property": "C29",
   "status": "proved",
   "theorems": [
    "C29_flags"
   ],
   "note": ""
  },
  {
   "property": "C47",
   "status": "partial",
   "theorems": [
    "C47_refuted",
    "C26_pause_quote"
   ],
   "note": "False of the code: two separators in a row give an empty quoted text. C26_pause_quote is the exact behaviour."
  },
  {
   "property": "C48",
   "status": "proved",
   "theorems": [
    "C48_restart"
   ],
   "note": ""
  },
  {
   "property": "C35",
   "status": "proved",
   "theorems": [
    "C35_total"
   ],
   "note": ""
  },
  {
   "property": "C36",
   "status": "proved",
   "theorems": [
    "C36_leaves"
   ],
   "note": ""
  },
  {
   "property": "C37",
   "status": "proved",
   "theorems": [
    "C37_locations"
   ],
   "note": ""
  },
  {
   "property": "C38",
   "status": "partial",
   "theorems": [
    "C38_refuted",
    "C38_set_partial",
    "C38_flag_partial",
    "C38_lexed_partial"
   ],
   "note": "False of the code: ZoiDelimiter and ZoiText nodes drop the flag, and after an empty zoi quote they show ordinary words (C38_refuted). The flag is never wrongly set, and is exact when no experimental word is within three tokens after zoi, in particular for lexed texts whose zoi quotes have a text."
  },
  {
   "property": "C39",
   "status": "proved",
   "theorems": [
    "C39_traversal",
    "C39_unique",
    "C39_printed",
    "C39_prints_exist"
   ],
   "note": ""
  },
  {
   "property": "C40",
   "status": "proved",
   "theorems": [
    "C40_no_panic",
    "C40_lines"
   ],
   "note": ""
  },
  {
   "property": "C41",
   "status": "proved",
   "theorems": [
    "C41_located",
    "C41_rest",
    "C41_offending_token_refuted"
   ],
   "note": "C41_offending_token_refuted: contrary to the documentation of WithLocation the location of an ExpectedGot error starts after the offending token."
  },
  {
   "property": "C42",
   "status": "partial",
   "theorems": [
    "C42_refuted",
    "C42_or_partial",
    "C42_assoc_partial"
   ],
   "note": "Merging is not associative (C42_refuted); C42_or_partial is its exact behaviour and C42_assoc_partial the case in which it is associative."
  },
  {
   "property": "C43",
   "status": "proved",
   "theorems": [
    "C43_rejected",
    "C43_unquoted",
    "C43_complete"
   ],
   "note": ""
  },
  {
   "property": "C44",
   "status": "proved",
   "theorems": [
    "C44_unclosed",
    "C44_lehu"
   ],
   "note": ""
  },
  {
   "property": "C45",
   "status": "partial",
   "theorems": [
    "C45_refuted",
    "C45_shape_partial",
    "C45_delimiters_partial"
   ],
   "note": "False of the code for empty quotes (C45_refuted); true of all texts without empty zoi quotes."
  },
  {
   "property": "C49",
   "status": "proved",
   "theorems": [
    "C49_kinds"
   ],
   "note": ""
  },
  {
   "property": "C50",
   "status": "proved",
   "theorems": [
    "C50_terminators"
   ],
   "note": ""
  },
  {
   "property": "C51",
   "status": "proved",
   "theorems": [
    "C51_classes_only"
   ],
   "note": ""
  },
  {
   "property": "C52",
   "status": "proved",
   "theorems": [
    "C52_never_last",
    "C52_complete"
   ],
   "note": ""
  },
  {
   "property": "C53",
   "status": "proved",
   "theorems": [
    "C53_never_first",
    "C53_complete"
   ],
   "note": ""
  },
  {
   "property": "C18",
   "status": "proved",
   "theorems": [
    "C18_gismu",
    "C18_five_letters",
    "C18_plain_vowels_refuted"
   ],
   "note": "Exact characterisation of Gismu. The reference grammar's version with a e i o u only is refuted (brydu is taken, brodA is not)."
  },
  {
   "property": "C19",
   "status": "proved",
   "theorems": [
    "C19_endings",
    "C19_unknown_cmavo"
   ],
   "note": ""
  },
  {
   "property": "C20",
   "status": "proved",
   "theorems": [
    "C20_pairs",
    "C20_triples",
    "C20_pair_decides"
   ],
   "note": ""
  },
  {
   "property": "C54",
   "status": "proved",
   "theorems": [
    "C54_unknown_cmavo",
    "C54_listed_form",
    "C54_cmavo_form",
    "C54_case_refuted"
   ],
   "note": "C54_case_refuted: capital letters in cmavo are not recognised (Mi is UnknownCmavo)."
  },
  {
   "property": "C55",
   "status": "proved",
   "theorems": [
    "C55_adjacent_cmavo",
    "C55_adjacent_words",
    "C55_adjacent_class",
    "C55_capitals_refuted"
   ],
   "note": "C55_adjacent_words is the case with capital vowels; C55_capitals_refuted shows that the other kind of word occurs."
  },
  {
   "property": "C56",
   "status": "partial",
   "theorems": [
    "C56_stable_partial",
    "C56_respaced",
    "C56_respaced_plain",
    "C56_trailing_comma_refuted"
   ],
   "note": "Proved for every word not directly followed by another one, every word without capital vowels and every word of the form of a cmavo, in any text; re-spacing likewise. Missing: brivla cut off after a capital stress and directly followed by another word (by C55_adjacent_words nothing else is left). C56_trailing_comma_refuted: with a comma at the end of a chunk the claim is false of the code."
  },
  {
   "property": "C57",
   "status": "proved",
   "theorems": [
    "C57_cmavo_in_front",
    "C57_cmavo_list_in_front",
    "C57_cmavo_list",
    "C57_exceptions"
   ],
   "note": "The exceptions named in the property are hypotheses; C57_exceptions shows that they are needed."
  },
  {
   "property": "C58",
   "status": "proved",
   "theorems": [
    "C58_two_consonants"
   ],
   "note": ""
  },
  {
   "property": "C59",
   "status": "proved",
   "theorems": [
    "C59_gismu",
    "C59_lujvo_refuted"
   ],
   "note": "C59_lujvo_refuted: the analogous claim for lujvo is false (tosmabru)."
  },
  {
   "property": "C60",
   "status": "proved",
   "theorems": [
    "C60_two_vowels"
   ],
   "note": ""
  },
  {
   "property": "C46",
   "status": "proved",
   "theorems": [
    "C46_exponential",
    "C46_polynomial_refuted",
    "C46_counts_the_run"
   ],
   "note": "The hoped-for polynomial bound is refuted; the count is of the run of the model itself (C46_counts_the_run)."
  },
  {
   "property": "C61",
   "status": "proved",
   "theorems": [
    "C61_cll_cmavo",
    "C61_only_cll",
    "C61_missing_refuted"
   ],
   "note": "The list of the reference grammar is in SpecCll.v, written independently of the source; ja'i and po'i are missing from the source (C61_missing_refuted)."
  },
  {
   "property": "C62",
   "status": "proved",
   "theorems": [
    "C62_transparent",
    "C62_exchange"
   ],
   "note": "The hypotheses are necessary: C62_needed."
  },
  {
   "property": "C63",
   "status": "proved",
   "theorems": [
    "C63_final_terminators",
    "C63_faho"
   ],
   "note": "False for ku, ke'e, foi (C63_refuted)."
  },
  {
   "property": "C64",
   "status": "proved",
   "theorems": [
    "C64_brivla"
   ],
   "note": ""
  },
  {
   "property": "C65",
   "status": "proved",
   "theorems": [
    "C65_generated",
    "C65_spoken"
   ],
   "note": "The grammar is SpecGrammar.v; terminators cannot be left out everywhere (C65_needed)."
  },
  {
   "property": "C66",
   "status": "proved",
   "theorems": [
    "C66_paragraph",
    "C66_sentence",
    "C66_text",
    "C66_spoken"
   ],
   "note": "The hypotheses are needed: C66_needed."
  },
  {
   "property": "C67",
   "status": "proved",
   "theorems": [
    "C67_grouped",
    "C67_no_crossing_node",
    "C67_unambiguous"
   ],
   "note": "The grammar is SpecGrammar.v; the kinds of nodes are listed in SpecParts.v."
  },
  {
   "property": "C68",
   "status": "proved",
   "theorems": [
    "C68_grammatical",
    "C68_nodes",
    "C68_ungrammatical"
   ],
   "note": "The EBNF is SpecEbnf.v; departures of the parser from CLL 21 are marked (+) there. C68_example_rejected: the grammar does refuse texts."
  },
  {
   "property": "C69",
   "status": "proved",
   "theorems": [
    "C69_struct",
    "C69_enum",
    "C69_longest",
    "C69_cut",
    "C69_cut_enum",
    "C69_failure_struct",
    "C69_failure_enum",
    "C69_failure_longest",
    "C69_accepted",
    "C69_tokens"
   ],
   "note": "Derive.v models the macro; C69_consume is the finding about longest and must_consume."
  },
  {
   "property": "C70",
   "status": "proved",
   "theorems": [
    "C70_unique",
    "C70_exists",
    "C70_returns",
    "C70_types",
    "C70_declarations"
   ],
   "note": "CstDecls.v is the transcription of the declarations."
  },
  {
   "property": "C71",
   "status": "proved",
   "theorems": [
    "C71_seen",
    "C71_faithful",
    "C71_words"
   ],
   "note": "C71_zoi_example shows why zoi quotes are excepted from the last part."
  },
  {
   "property": "C72",
   "status": "proved",
   "theorems": [
    "C72_node",
    "C72_passthrough",
    "C72_containers",
    "C72_rejects",
    "C72_kind",
    "C72_name_ignored",
    "C72_law",
    "C72_honest",
    "C72_answers",
    "C72_seen",
    "C72_construct"
   ],
   "note": "TreeDerive.v models the macro and the trait impls."
  },
  {
   "property": "C73",
   "status": "proved",
   "theorems": [
    "C73_trimmed",
    "C73_trim_exists",
    "C73_printed",
    "C73_no_panic",
    "C73_lines",
    "C73_last_line",
    "C73_usage"
   ],
   "note": "Output is kept as data; Rust's {:?} formatting of strings, the prompt and --verbose are not modelled."
  },
  {
   "property": "C74",
   "status": "proved",
   "theorems": [
    "C74_words",
    "C74_same_spelling",
    "C74_respaced",
    "C74_separators",
    "C74_commas",
    "C74_apostrophes"
   ],
   "note": "C74_respaced excepts the words that C56 leaves out; the vocabulary is SpecReading.v."
  },
  {
   "property": "C75",
   "status": "proved",
   "theorems": [
    "C75_same_words",
    "C75_words_keep_class",
    "C75_capital_not_listed",
    "C75_cmavo_lost",
    "C75_read_alike"
   ],
   "note": "C75_vowels_refuted shows why vowels are left alone; C75_cmavo_lost is the finding that capital letters make listed cmavo unknown."
  }
 ]
}
{"id": "C01", "title": "Decomposition is total", "statement": "For every input shorter than 4 GiB, collecting decompose(input) terminates and never panics (no slice off a char boundary, no pointer-subtraction underflow, no u32 conversion or addition failure), in debug and release builds.", "quantifier": "all strings of fewer than 2^32 bytes, any Unicode content, both build profiles", "why_tests_cant": "the rules recurse through about 120 mutually recursive functions with pointer arithmetic; only finitely many strings can be tried", "anchors": ["src/decompose/mod.rs: decompose, decompose_single, Decomposer::next", "src/rules.rs: seq!, repeat, one_of"]}
{"id": "C02", "title": "Spans slice", "statement": "Every span yielded by the decomposer, under any sequence of next and next_no_decomposition calls, lies inside the input and on character boundaries: span.slice(input) is Some.", "quantifier": "all inputs below 4 GiB and all finite sequences of next/next_no_decomposition calls", "why_tests_cant": "histories and inputs are unbounded; multi-byte text is rarely tested", "anchors": ["src/decompose/mod.rs: Decomposer::next, next_no_decomposition", "src/span.rs: Span::slice"]}
{"id": "C03", "title": "Spans are ordered and disjoint", "statement": "Under any sequence of next and next_no_decomposition calls the yielded spans appear left to right and do not overlap: each starts at or after the end of the previous one.", "quantifier": "all inputs and all call histories", "why_tests_cant": "state carried between calls (current chunk, peeked chunk) makes orderings history dependent", "anchors": ["src/decompose/mod.rs: Decomposer"]}
{"id": "C04", "title": "Nothing is lost or invented", "statement": "The words of decompose(input), put back with the gaps between them, rebuild the input, and every gap contains only separators and commas. Inside one chunk consecutive words touch.", "quantifier": "all inputs below 4 GiB", "why_tests_cant": "a lost or duplicated letter would need an unlucky input to be seen", "anchors": ["src/decompose/mod.rs: decompose_single, Decomposer::next"]}
{"id": "C05", "title": "Words are proper", "statement": "Every word yielded by plain iteration is non-empty, contains no separator character and contains at least one character that is not a comma.", "quantifier": "all inputs and every yielded word", "why_tests_cant": "empty or all-comma words only arise on odd inputs", "anchors": ["src/decompose/mod.rs: Decomposer::next"]}
{"id": "C06", "title": "Separators are independent and interchangeable", "statement": "Decomposing a ++ sep ++ b gives the words of a followed by the words of b shifted by the bytes before b, for every separator character; replacing one separator by another changes nothing.", "quantifier": "all pairs of strings and all separator characters", "why_tests_cant": "an unbounded set of pairs", "anchors": ["src/decompose/mod.rs: split_or_trim_condition, Decomposer"]}
{"id": "C07", "title": "A chunk ending in a consonant is one word", "statement": "A chunk whose last non-comma character is a consonant letter is yielded as a single word spanning the chunk exactly.", "quantifier": "all chunks", "why_tests_cant": "any letters may precede the consonant", "anchors": ["src/decompose/mod.rs: simple_cmevla_check, decompose_single"]}
{"id": "C08", "title": "next_no_decomposition alone is plain splitting", "statement": "Using only next_no_decomposition yields exactly the chunks of input.split(split_or_trim_condition), empty ones included.", "quantifier": "all inputs", "why_tests_cant": "unbounded inputs", "anchors": ["src/decompose/mod.rs: Decomposer::next_no_decomposition"]}
{"id": "C09", "title": "next_no_decomposition resumes inside a chunk", "statement": "After next has yielded some but not all words of a chunk, next_no_decomposition yields the text from the first unread word to the end of the chunk, and iteration then resumes at the next chunk.", "quantifier": "all inputs and all histories ending inside a chunk", "why_tests_cant": "depends on history", "anchors": ["src/decompose/mod.rs: Decomposer::next_no_decomposition"]}
{"id": "C10", "title": "The decomposer is fused", "statement": "Once next returns None, every later call of next or next_no_decomposition returns None.", "quantifier": "all inputs and histories", "why_tests_cant": "unbounded histories", "anchors": ["src/decompose/mod.rs: Decomposer"]}
{"id": "C11", "title": "size_hint is a valid lower bound", "statement": "The lower bound of size_hint never exceeds the number of words that next will still yield.", "quantifier": "all inputs and all call histories", "why_tests_cant": "requires every reachable iterator state", "anchors": ["src/decompose/mod.rs: Decomposer::size_hint"]}
{"id": "C12", "title": "Commas do not matter inside words", "statement": "Inserting or removing commas anywhere in a chunk except after its last non-comma character changes neither the words (up to commas) nor their classification.", "quantifier": "all strings and all comma placements", "why_tests_cant": "unbounded placements; the rules treat eof specially", "anchors": ["src/rules.rs: one_of, eof", "src/lex/selmaho/classify.rs: classify", "src/decompose/mod.rs: decompose_single"]}
{"id": "C13", "title": "h and apostrophe are interchangeable", "statement": "Replacing any apostrophe by h or vice versa in a text changes neither the spans of its words nor their selmaho (cmevla and table lookup included).", "quantifier": "all strings and all replacements", "why_tests_cant": "unbounded", "anchors": ["src/rules.rs: h", "src/lex/selmaho/classify.rs: transform_for_direct_cmavo_check"]}
{"id": "C14", "title": "Foreign characters never make Lojban words", "statement": "If a decomposed word is classified as Cmevla, Gismu, Lujvo, Fuhivla or UnknownCmavo, each of its characters is an ASCII Lojban letter (either case), digit, apostrophe, h or comma.", "quantifier": "all strings", "why_tests_cant": "the complement of the alphabet is huge", "anchors": ["src/lex/selmaho/classify.rs: classify_generally", "src/rules.rs"]}
{"id": "C15", "title": "classify is total", "statement": "Selmaho::classify returns for every string (any Unicode, any length, empty included) without panicking.", "quantifier": "all strings", "why_tests_cant": "16-byte buffer with UTF-8 revalidation: boundary cases at the buffer edge", "anchors": ["src/lex/selmaho/classify.rs: classify, transform_for_direct_cmavo_check"]}
{"id": "C16", "title": "Known cmavo are recognised exactly", "statement": "A word whose letters (commas dropped, h read as apostrophe) are a listed cmavo of at most 16 letters gets that listed selmaho; a word that is not listed gets one of Cmevla, UnknownCmavo, Gismu, Fuhivla, Lujvo, AnyText.", "quantifier": "all strings", "why_tests_cant": "unbounded spellings", "anchors": ["src/lex/selmaho/classify.rs: classify"]}
{"id": "C17", "title": "Experimental flag is exact", "statement": "classify reports experimental exactly for the listed experimental cmavo, for selmaho that contain only experimental cmavo, and for unknown cmavo; words classified as Gismu, Lujvo, Fuhivla, Cmevla or AnyText are never experimental; ZoiDelimiter is never returned.", "quantifier": "all strings", "why_tests_cant": "all strings", "anchors": ["src/lex/selmaho/classify.rs: classify", "src/lex/selmaho/mod.rs: is_fundamentally_experimental"]}
{"id": "C18", "title": "Gismu shape", "statement": "classify calls a word Gismu exactly when it does not end in a comma and its letters (commas dropped) are five, of the form CVCCV with a permissible pair CC or CCVCV with a permissible initial pair CC, the last vowel one of a e i o u in lower case and the first one of a e i o u y.", "quantifier": "all strings", "why_tests_cant": "the rules look ahead arbitrarily far; shape must hold for each string", "anchors": ["src/rules.rs: gismu", "src/lex/selmaho/classify.rs"]}
{"id": "C19", "title": "Cmevla and brivla endings", "statement": "A word classified Cmevla ends in a consonant letter; a word classified Gismu, Fuhivla or Lujvo ends in a vowel letter a e i o u; a word classified UnknownCmavo ends in a vowel letter, y or a digit and contains no consonant after its first letter.", "quantifier": "all strings", "why_tests_cant": "all strings", "anchors": ["src/rules.rs: cmevla, cmavo_form, brivla_minimal", "src/lex/selmaho/classify.rs"]}
{"id": "C20", "title": "Consonant pairs and triples", "statement": "In a word classified Cmevla, UnknownCmavo, Gismu, Fuhivla or Lujvo any two adjacent consonants (commas dropped) form a permissible pair in the sense of the reference grammar (CLL 3.6), and no three of them are ndj, ndz, ntc or nts. Conversely CVxyV is a Gismu exactly when xy is permissible, and xyVCV exactly when xy is one of the 48 permissible initial pairs.", "quantifier": "all strings, all places in them", "why_tests_cant": "pair rules are recursive look-aheads over the remaining text", "anchors": ["src/rules.rs: consonant_rule!, initial_pair, gismu", "src/lex/selmaho/classify.rs: classify"]}
{"id": "C21", "title": "Lexing is total", "statement": "lex(input) yields finitely many items and never panics, for inputs below 4 GiB.", "quantifier": "all inputs below 4 GiB, both profiles", "why_tests_cant": "unbounded inputs and states", "anchors": ["src/lex/mod.rs: Lexer::next"]}
{"id": "C22", "title": "Token spans", "statement": "All spans of tokens and errors yielded by lex slice the input; token spans are ordered and disjoint.", "quantifier": "all inputs", "why_tests_cant": "unbounded", "anchors": ["src/lex/mod.rs: Lexer"]}
{"id": "C23", "title": "Without quotes lexing is classify after decompose", "statement": "If no word of the input is classified as a quote initiator or as fa'o, lex(input) yields exactly the words of decompose(input), each with classify's selmaho and flag, and no error.", "quantifier": "all inputs without quote initiators", "why_tests_cant": "unbounded", "anchors": ["src/lex/mod.rs: next_normal"]}
{"id": "C24", "title": "Delimited quotes", "statement": "After a ZOI or MUhOI token come ZoiDelimiter, at most one AnyText, ZoiDelimiter (for SOhEhAI: two texts and three delimiters), or the unclosed-quote error; the delimiters are equal up to commas, the ending one is the first chunk equal to the starting one, and the text spans exactly from the first to the last quoted chunk.", "quantifier": "all inputs and all quote positions", "why_tests_cant": "text between delimiters is arbitrary", "anchors": ["src/lex/mod.rs: next_delimited_quote"]}
{"id": "C25", "title": "Delimited quotes always carry a text token", "statement": "For selmaho like ZOI the tokens after it are [ZoiDelimiter, AnyText, ZoiDelimiter] (module documentation).", "quantifier": "all closed delimited quotes", "why_tests_cant": "-", "anchors": ["src/lex/mod.rs: lex doc, next_delimited_quote"]}
{"id": "C26", "title": "Pause-delimited quotes", "statement": "After a MEhOI, ZOhOI or DOhOI token comes exactly one AnyText token, the rest of the chunk or the next chunk, or the end-of-input error when there is none.", "quantifier": "all inputs", "why_tests_cant": "arbitrary quoted text", "anchors": ["src/lex/mod.rs: next_pause_delimited_quote"]}
{"id": "C27", "title": "Errors and termination", "statement": "At most one error is yielded, it is the last item, its spans are those of the initiator (and starting delimiter), and afterwards the lexer yields None forever.", "quantifier": "all inputs and histories", "why_tests_cant": "histories", "anchors": ["src/lex/mod.rs: Lexer::next"]}
{"id": "C28", "title": "fa'o ends lexing", "statement": "A FAhO or FAhOhO token is the last item whatever follows it in the input.", "quantifier": "all inputs with fa'o, all continuations", "why_tests_cant": "all continuations", "anchors": ["src/lex/mod.rs: next_normal"]}
{"id": "C29", "title": "Technical tokens are never experimental", "statement": "AnyText and ZoiDelimiter tokens yielded by lex have experimental = false; every other token carries exactly classify's flag.", "quantifier": "all inputs", "why_tests_cant": "-", "anchors": ["src/lex/mod.rs", "src/lex/selmaho/classify.rs"]}
{"id": "C30", "title": "Long yyy and long listed cmavo", "statement": "Every listed cmavo and every run of y is classified with its listed selmaho regardless of its length.", "quantifier": "all listed cmavo, all lengths of y", "why_tests_cant": "the buffer limit only shows beyond 16 bytes", "anchors": ["src/lex/selmaho/classify.rs: transform_for_direct_cmavo_check"]}
{"id": "C31", "title": "Span slicing laws", "statement": "For any span inside a text, slice_before ++ slice ++ slice_after is the text, slice has len() bytes, and slice is None exactly when the span is reversed, out of bounds or not on boundaries.", "quantifier": "all spans and texts", "why_tests_cant": "all spans", "anchors": ["src/span.rs: slice, slice_before, slice_after"]}
{"id": "C32", "title": "overlaps_with is commutative and geometric", "statement": "overlaps_with never panics, is commutative, and for non-empty spans holds exactly when a location lies in both.", "quantifier": "all pairs of spans", "why_tests_cant": "pairs", "anchors": ["src/span.rs: overlaps_with"]}
{"id": "C33", "title": "between", "statement": "Span::between returns the region between two spans, and None exactly when they overlap or are in the wrong order.", "quantifier": "all pairs of spans", "why_tests_cant": "pairs", "anchors": ["src/span.rs: between"]}
{"id": "C34", "title": "Constructors", "statement": "new panics exactly on reversed bounds; at(s,l).len() = l unless it overflows; entire_slice(t).slice(t) = t; from_embedded_slice inverts slice.", "quantifier": "all arguments", "why_tests_cant": "-", "anchors": ["src/span.rs: new, at, entire_slice, from_embedded_slice"]}
{"id": "C35", "title": "Parsing is total", "statement": "Cst::parse returns for every token slice: the grammar has no left recursion and no loop without progress, and no panic is reachable.", "quantifier": "all finite token lists (not only lexer output)", "why_tests_cant": "unbounded token sequences", "anchors": ["src/parse/cst/mod.rs: Cst::parse", "src/parse/cst/rules/mod.rs", "macros/src/derive_parse.rs"]}
{"id": "C36", "title": "The tree covers the tokens", "statement": "On success the leaves of the tree, in order, are exactly the input tokens: same spans, none dropped, duplicated or reordered.", "quantifier": "all token lists", "why_tests_cant": "all", "anchors": ["src/parse/cst/rules/mod.rs", "src/parse/cst/parse_trait.rs"]}
{"id": "C37", "title": "Node locations", "statement": "start_location and end_location of a node are both Some or both None; they are the start of its first leaf and the end of its last leaf.", "quantifier": "all nodes of all trees", "why_tests_cant": "all", "anchors": ["src/parse/tree_node.rs", "macros/src/derive_tree_node.rs"]}
{"id": "C38", "title": "Node experimental flag", "statement": "A node's experimental() is true exactly when some token under it is experimental ('contains any experimental cmavo at any level').", "quantifier": "all trees", "why_tests_cant": "all", "anchors": ["src/parse/tree_node.rs", "src/parse/cst/rules/mod.rs: ZoiDelimiter, ZoiText"]}
{"id": "C39", "title": "Traversal visits every leaf once", "statement": "Recursively following for_each_child from the root visits every leaf exactly once, in input order; the --collapse-cst printing mode preserves that.", "quantifier": "all trees", "why_tests_cant": "all", "anchors": ["src/parse/tree_node.rs", "examples/main.rs: print_tree_node"]}
{"id": "C40", "title": "Printing a tree of a lexed text never panics", "statement": "For any input that lexes and parses, printing the tree (Span::new(start,end), slice().unwrap()) does not panic and every printed slice is the text from first to last token of the node.", "quantifier": "all inputs", "why_tests_cant": "all", "anchors": ["examples/main.rs: print_tree_node"]}
{"id": "C41", "title": "Parse errors are located", "statement": "A parse error's location is a suffix of the token slice; a non-fatal failure is reported as the unconsumed rest, which is non-empty.", "quantifier": "all token lists", "why_tests_cant": "all", "anchors": ["src/parse/cst/error.rs: WithLocation", "src/parse/cst/mod.rs"]}
{"id": "C42", "title": "Error merging", "statement": "or keeps the error furthest in the input and, at equal location with the same got token, merges the expected selmaho; or is associative.", "quantifier": "all triples of errors", "why_tests_cant": "all", "anchors": ["src/parse/cst/error.rs: or"]}
{"id": "C43", "title": "Unlexable and unknown words are rejected", "statement": "If the token list contains an AnyText, UnknownCmavo or ZoiDelimiter token or a selmaho the grammar does not mention, and no quoting word (zo, zoi, lo'u, bu, zei), parsing fails.", "quantifier": "all token lists", "why_tests_cant": "all", "anchors": ["src/parse/cst/rules/mod.rs"]}
{"id": "C44", "title": "Unclosed lo'u is an error", "statement": "lo'u without a following le'u makes parsing fail.", "quantifier": "all token lists", "why_tests_cant": "all", "anchors": ["src/parse/cst/rules/mod.rs: LohuSumti"]}
{"id": "C45", "title": "The ending delimiter token of a zoi quote is a ZoiDelimiter", "statement": "In a parsed text each zoi quote's delimiter nodes are delimiter tokens of that quote.", "quantifier": "all inputs", "why_tests_cant": "only arises for empty quotes", "anchors": ["src/parse/cst/rules/mod.rs: ZoiSumti", "src/lex/mod.rs"]}
{"id": "C46", "title": "The work of lexing a chunk has no polynomial bound", "statement": "One would rely on the number of rule invocations made while decomposing a chunk being polynomial in its length. It is not: a chunk of 2n letters y makes at least 2^n rule invocations, for every n > 0, so no polynomial in the length of the chunk bounds them.", "quantifier": "all n, and all candidate bounds c * length^d", "why_tests_cant": "timing of particular inputs says nothing about growth", "anchors": ["src/rules.rs: vowel, nucleus"]}
{"id": "C47", "title": "Pause-delimited quotes are non-empty", "statement": "The AnyText token after a MEhOI, ZOhOI or DOhOI word covers at least one character.", "quantifier": "all inputs", "why_tests_cant": "depends on how many separators follow the word", "anchors": ["src/lex/mod.rs: Lexer::next", "src/decompose/mod.rs: next_no_decomposition"]}
{"id": "C48", "title": "Decomposition can be restarted at a word boundary", "statement": "Decomposing the part of a text after any of its words yields the remaining words of the whole decomposition, moved left.", "quantifier": "all inputs, all word boundaries", "why_tests_cant": "lookahead and lookbehind of the morphology rules could depend on earlier text for some input", "anchors": ["src/decompose/mod.rs: Decomposer"]}
{"id": "C49", "title": "Which parse errors surface", "statement": "A parse error is always 'input left over' (nom Eof), 'not' (a foi or ga'o taken up by bu/zei), or exactly one expected selmaho, foi or ga'o; lists of several expected selmaho, PostConditionFailed and Empty never reach the user.", "quantifier": "all token lists", "why_tests_cant": "the grammar has hundreds of failure paths, and which one is reported depends on the whole input", "anchors": ["src/parse/cst/error.rs", "src/parse/cst/rules/mod.rs", "macros/src/derive_parse.rs"]}
{"id": "C50", "title": "Terminators need openers", "statement": "In every prefix of an accepted text without quoting words there are at most as many ku'o as noi, kei as nu, li'u as lu, toi as to, be'o as be, ge'u as goi, fe'u as fi'o, me'u as me, lo'o as li, lu'u as la'e/na'e, te'u as ni'e/mo'e/jo'i/ma'o/na'u, ve'o as vei, ke'e as ke, tu'u as tu'e, se'u as sei/soi, do'u as coi/doi, foi as tei, and at most twice as many nu'u as nu'i.", "quantifier": "all token lists", "why_tests_cant": "unbounded nesting", "anchors": ["src/parse/cst/rules/mod.rs"]}
{"id": "C51", "title": "Parsing depends on the selmaho only", "statement": "Token lists with equal selmaho sequences are parsed into trees of the same shape, or fail with the same error at the same place; spans and flags are only carried along.", "quantifier": "all pairs of token lists", "why_tests_cant": "all pairs", "anchors": ["src/parse/cst/rules/mod.rs", "src/parse/cst/parse_trait.rs"]}
{"id": "C52", "title": "How texts end", "statement": "In texts without quoting words, exactly the listed selmaho can end an accepted text: those that need something after them never do, every other does in some text.", "quantifier": "all token lists, all selmaho", "why_tests_cant": "no finite set of texts shows that no text ends so", "anchors": ["src/parse/cst/rules/mod.rs"]}
{"id": "C53", "title": "How texts begin", "statement": "Likewise for the first word.", "quantifier": "all token lists, all selmaho", "why_tests_cant": "no finite set of texts shows that no text begins so", "anchors": ["src/parse/cst/rules/mod.rs"]}
{"id": "C54", "title": "Cmavo shape", "statement": "classify calls a word UnknownCmavo exactly when it does not end in a comma, is not in the cmavo table (or is longer than 16 bytes), and its letters have cmavo form: a digit, one or more y, or an optional single consonant (or i/u as a glide) followed by vowels and diphthongs separated by apostrophes. Every cmavo in the table has that form except one entry with a stray space, so every word that gets a cmavo class has cmavo form.", "quantifier": "all strings; all entries of the cmavo table", "why_tests_cant": "ranges over all strings and over the whole table", "anchors": ["src/rules.rs: cmavo_form, cmavo_minimal", "src/lex/selmaho/classify.rs: classify"]}
{"id": "C55", "title": "Words run together only after cmavo", "statement": "In a text without capital vowels, whenever the iterator yields two words with nothing between them, the first one has the form of a cmavo and is classified as one: a gismu, lujvo, fu'ivla or name is never cut into pieces and never runs into the next word. In a text with capital vowels there is exactly one further kind: a brivla cut off after its stress, which has a capital vowel and at least two vowels.", "quantifier": "all texts shorter than 4 GiB, all pairs of adjacent words", "why_tests_cant": "The words come out of a backtracking grammar with negative lookahead; only finitely many texts can be tried, and the claim is about every text, including malformed ones.", "anchors": ["src/decompose/mod.rs: decompose_single", "src/rules.rs: cmavo_minimal", "src/lex/selmaho/classify.rs: classify"]}
{"id": "C56", "title": "Words are words by themselves", "statement": "Every word that decomposition finds, decomposed by itself, is one word; and the words of a text written out with spaces are the words of the new text, so writing spaces between the words never changes the reading.", "quantifier": "all texts without a comma at the end of a chunk, all their words", "why_tests_cant": "The boundary of a word is decided with lookahead over everything that follows it in the chunk, so the removal of the context could change it; tests cover few contexts.", "anchors": ["src/decompose/mod.rs: decompose_single, post_word"]}
{"id": "C57", "title": "cmavo may be written together with the next word", "statement": "If a chunk starts with a consonant, does not end with one, and its first word is a valid word, then writing cmavo directly in front of it yields those cmavo and then the same words, moved right. A string of consonant-initial cmavo alone is decomposed into exactly these cmavo. Exceptions: capital vowels, and CV before Cy.", "quantifier": "all lists of cmavo of any length, all following chunks", "why_tests_cant": "The number of cmavo and the chunk are unbounded, and the decomposition works with lookahead and one step of backtracking.", "anchors": ["src/decompose/mod.rs: decompose_single", "src/rules.rs: cmavo_form, cvcy_lujvo, post_word"]}
{"id": "C58", "title": "A chunk that starts with two consonants is one word", "statement": "A chunk without capital vowels whose first two letters are consonants is always decomposed as a single word covering the chunk.", "quantifier": "all chunks without capital vowels and without a comma at the end", "why_tests_cant": "All continuations of the two consonants would have to be tried.", "anchors": ["src/decompose/mod.rs: decompose_single", "src/rules.rs: cmavo_minimal"]}
{"id": "C59", "title": "A gismu is one word", "statement": "A chunk that classification calls a gismu is decomposed as that one word, also with commas and capitals in it.", "quantifier": "all chunks classified Gismu", "why_tests_cant": "There are tens of thousands of gismu shapes, times capitals and commas in any number.", "anchors": ["src/decompose/mod.rs: decompose", "src/lex/selmaho/classify.rs: classify", "src/rules.rs: gismu"]}
{"id": "C60", "title": "Every brivla has two vowels", "statement": "A word classified Gismu, Fuhivla or Lujvo contains at least two vowel letters (counting y).", "quantifier": "all words", "why_tests_cant": "The grammar of lujvo and fu'ivla is recursive, words may have any length.", "anchors": ["src/lex/selmaho/classify.rs: classify", "src/rules.rs: gismu, fuhivla, lujvo_minimal"]}
{"id": "C61", "title": "Every cmavo of the reference grammar is recognised in its selma'o", "statement": "Every cmavo of the CLL catalogue, in any spelling (commas, h for the apostrophe), is classified in the selma'o the catalogue gives, displayed under the catalogue's name, and is not marked experimental; the only exceptions are ja'i and po'i of BAI, which come out as unknown cmavo. Conversely, a word with a cmavo class that is not marked experimental is one of the catalogue's, ci'a, a digit or a hesitation.", "quantifier": "all words", "why_tests_cant": "the table has about 1800 entries in 300 arms and every word of the language goes through it; the tests look at a few dozen words", "anchors": ["src/lex/selmaho/classify.rs: Selmaho::classify", "src/lex/selmaho/display.rs: as_repr"]}
{"id": "C62", "title": "Attitudinals and emphasis do not affect acceptance", "statement": "In a text without quoting words (zo, zoi, lo'u, bu, zei), without fu'e, in which every ba'e stands before a word other than lu, removing all UI, CAI, NAI, DA'O, FU'O, Y and BA'E words changes neither acceptance nor rejection; hence two such texts that differ only in these words are both accepted or both rejected. Each hypothesis is needed.", "quantifier": "every token list", "why_tests_cant": "the insertion points and the number of inserted words are unbounded, and the grammar is a backtracking PEG with negative lookahead in which an inserted word could change any choice", "anchors": ["src/parse/cst/mod.rs: parse", "src/parse/cst/rules/selmaho.rs: bahe, indicators of every token rule", "src/parse/cst/rules/mod.rs: Indicators"]}
{"id": "C63", "title": "Terminators may be left out at the end, fa'o may be added", "statement": "If an accepted text without quoting words ends with any number of terminators out of be'o boi do'u fe'u ge'u kei ku'e ku'o li'u lo'o lu'u me'u nu'u ra'o se'u te'u toi tu'u vau ve'o, it is accepted without them (unless what is left ends with ba'e); for ku, ke'e and foi this is false. A text without quoting words and fa'o is accepted exactly when it is with fa'o at its end.", "quantifier": "every token list and every list of final terminators", "why_tests_cant": "quantifies over all texts, with structures open at the end to any depth", "anchors": ["src/parse/cst/mod.rs: parse", "src/parse/cst/rules/mod.rs: Text and all rules with an optional terminator"]}
{"id": "C64", "title": "Gismu, lujvo and fu'ivla are interchangeable", "statement": "Two texts whose tokens differ only in which of the three kinds of brivla (Gismu, Lujvo, Fuhivla) stands at each place are both accepted or both rejected, quoting words included.", "quantifier": "every pair of token lists of equal length", "why_tests_cant": "the three kinds are separate arms of an ordered choice in one rule, next to other arms, lookahead and quoting rules; that the choice never matters in any context quantifies over all texts", "anchors": ["src/parse/cst/rules/mod.rs: TanruUnit2"]}
{"id": "C65", "title": "Everyday Lojban is accepted", "statement": "Every text generated by a stated context-free grammar of everyday Lojban (paragraphs; sentences with .i, .i bo, .i je, tu'e groups and prenexes; terms with place tags, tenses and modals; sumti with articles, names, numbers, possessors, relative clauses, quotations, logical and non-logical connectives, forethought ga...gi; selbri with tense, negation, tanru, bo, co, je, ke, se, be, abstractions; connected bridi tails; grouped bridi tails; the usual omissions of ku before another term, a connective, cu, a tense, zo'u or the end, and of be'o, ku'o and kei ku before cu or the end) is accepted by the parser; and so is every text that is generated after its attitudinals, hesitations and emphasis are taken out and terminators are added at its end.", "quantifier": "all texts of the grammar: unboundedly many, of unbounded length and nesting depth", "why_tests_cant": "The grammar generates infinitely many texts of unbounded nesting; tests try some sentences, while acceptance by an ordered-choice parser with greedy repetition and negative lookahead depends on everything that follows.", "anchors": ["src/parse/cst/mod.rs", "src/parse/cst/rules/mod.rs", "src/parse/cst/rules/connectives.rs", "src/parse/cst/rules/mekso.rs", "src/parse/cst/rules/helpers.rs"]}
{"id": "C66", "title": "Texts compose from sentences and paragraphs", "statement": "A text that is cut in two at a ni'o is accepted exactly when both parts are accepted on their own; likewise at an .i when the second part does not begin with words that attach it to the first (.i je, .i pu bo, .i bo). So a text of any number of sentences and paragraphs is accepted exactly when each of them is, and an error in one piece is never hidden or caused by another. The first part must close what it opens (lu...li'u, to...toi, tu'e...tu'u) and word quotation, fa'o and fu'e are set aside; attitudinals, hesitations and emphasis may be anywhere.", "quantifier": "all token lists for the parts, of any length and nesting, and any number of parts", "why_tests_cant": "Tests try some concatenations of sentences. Whether an ordered-choice parser accepts a concatenation depends on every alternative in both parts, because each elidable terminator, lookahead and greedy repetition may consume across the boundary.", "anchors": ["src/parse/cst/mod.rs", "src/parse/cst/rules/mod.rs: Text, Paragraphs, Paragraph, ParagraphItem, Sentences, Sentences3, ParagraphSeparator, SentenceSeparator, ConnectedSentenceSeparator, CloseSentenceSeparator", "src/parse/cst/rules/helpers.rs"]}
{"id": "C67", "title": "The tree groups everyday Lojban as its grammar does", "statement": "In a text generated by a context-free grammar of everyday Lojban, wherever a construct of the grammar occurs - a sentence, a bridi tail, a term, a sumti, a relative clause, a selbri, a tanru, a number, a connective and so on - the tree returned by parse has a node of the corresponding kind that shows exactly the tokens of that construct, with exactly the tokens before and after it around it. Consequently no node of the tree crosses a construct, and no two constructs of a text cross each other even if they come from different derivations: the reading of the text is structurally unique.", "quantifier": "all texts of the grammar, of any length and nesting depth, all derivations of each, and every construct in them", "why_tests_cant": "Tests compare the trees of a few sentences. That the ordered-choice parser ends every construct exactly where the grammar does must hold for every way of nesting and following constructs, of which there are infinitely many.", "anchors": ["src/parse/cst/mod.rs: parse", "src/parse/cst/rules/mod.rs: Text, Paragraph, Sentence, SentenceTail1, SentenceTail4, Arg, Sumti, Sumti3, Sumti4, SumtiComponent1, RelativeClause, Selbri, Selbri2, Selbri3, Selbri6, TanruUnit1, TanruUnit2, Subsentence", "src/parse/cst/rules/connectives.rs", "src/parse/tree_node.rs", "macros/src/derive_parse.rs"]}
{"id": "C68", "title": "Whatever the parser accepts is grammatical, and every node is the construct it is named after", "statement": "If cst::parse returns a tree, then the text is generated by the EBNF grammar of the reference grammar (CLL chapter 21, with the parser's documented liberties), and for every node of the tree, the words under the node are an instance of the EBNF construct that the kind of the node names (a Sumti node shows a sumti, a Selbri node a selbri, a Gihek node a gihek, ...). Consequently every text that the grammar does not generate is rejected.", "quantifier": "every token list without restriction (including quotations, zei and bu compounds, indicators, free modifiers, mathematical expressions), every node of every returned tree, every construct of the EBNF", "why_tests_cant": "tests show that some wrong texts are rejected; that no ungrammatical text whatsoever is accepted, and no node is ever built around words that do not form such a construct, ranges over infinitely many texts and trees", "anchors": ["src/parse/cst/mod.rs: parse", "src/parse/cst/rules/mod.rs: all rules", "src/parse/cst/rules/selmaho.rs", "macros/src/derive_parse.rs"]}
{"id": "C69", "title": "What a declaration with #[derive(Parse)] means", "statement": "For every struct or enum declaration and whatever the parsers of its field types, `with` functions and post-conditions do: the derived Parse impl of a struct succeeds on an input exactly when its fields can be read one after another in declaration order (each by the parser of its type or by its `with`, and only where none of its `not` types parses), something was consumed if `must_consume` is given, every `postcond` holds of the value and no `not_after` type parses on the rest; the value is built from exactly these field values. An enum yields its first variant, read as the struct it looks like, such that all variants before it do not match; with `longest` it yields the first of the variants that leave the shortest rest. A failing `cut` field is fatal to its struct and its enum: no later variant is tried; and nothing else is fatal (a struct fails fatally only through a field's parser, one of its `not`s or a `not_after` doing so, or a `cut` field not matching). The macro yields a parser exactly for the well-formed declarations (listed in the specification: e.g. `not_after` on a field, `postcond` on a `longest` enum, unit structs and variants do not work). Derived parsers take a prefix of the input and account for every token of it in their values if the parsers they are built from do. Finding: `longest` makes `must_consume` on the enum ineffective.", "quantifier": "every declaration (any number of fields, variants and attributes), every assignment of parsers to types, every input, every result", "why_tests_cant": "tests of a derive macro exercise a handful of declarations; the meaning of the attributes has to hold for every declaration and any parsers it is composed with", "anchors": ["macros/src/derive_parse.rs: implement_parse, implement_struct, make_elements, wrap_must_consume, ContainerAttributes::get, FieldAttributes::get, VariantAttributes::get", "src/parse/cst/parse_trait.rs: Parse"]}
{"id": "C70", "title": "The grammar's declarations define one parser, the one all other properties are about", "statement": "Take the declarations of src/parse/cst/rules as they are written (types, fields, attributes, type parameters, aliases) and any assignment of parsers to types that satisfies all Parse impls reached from Root, derived or handwritten. Then parsing a token list gives the same result, tree or error, as the parser model of the other properties, on every token list; such an assignment exists; parsing always returns; every declaration is accepted by the macro; and each declared type's parser is the one derived from its declaration.", "quantifier": "every token list; every assignment of parsers to types satisfying the impls (mutual recursion through 134 declarations); every declared type at every type argument in use", "why_tests_cant": "the mutually recursive impls define the parser only implicitly; that they have a solution, only one, and that it is total cannot be observed on finitely many inputs", "anchors": ["src/parse/cst/rules/mod.rs", "src/parse/cst/rules/connectives.rs", "src/parse/cst/rules/mekso.rs", "src/parse/cst/rules/selmaho.rs", "src/parse/cst/rules/helpers.rs", "src/parse/cst/parse_trait.rs", "src/parse/cst/mod.rs: parse", "macros/src/derive_parse.rs"]}
{"id": "C71", "title": "The printed tree is faithful", "statement": "If two inputs, even different ones, are printed as syntax trees with the same lines (indentation, name, star, span of each line), with or without collapsing, then exactly the same is to be seen of their trees through TreeNode (names, stars, extents, nesting); their words stand at the same places; and, unless the first has a zoi quote (whose words are printed without their class), the tokens are the same and so the two parse trees are equal, even if only children were collapsed away. What is to be seen of a tree is uniquely determined.", "quantifier": "every two inputs, both build modes, with and without collapsing, every pair of parse trees", "why_tests_cant": "an injectivity statement about all pairs of inputs of unbounded size; tests compare single printouts", "anchors": ["examples/main.rs", "src/parse/tree_node.rs: TreeNode", "src/parse/cst/mod.rs: parse"]}
{"id": "C72", "title": "What a declaration with #[derive(TreeNode)] means, and the trees built from it", "statement": "For every struct or enum, whatever its fields answer: the derived TreeNode impl has the name of the type (Type::Variant for enums); its children are the nodes of the fields in declaration order (also when a field is a tuple, slice, option or passes its children through); it is experimental iff some field is; it starts where its first non-empty field starts and ends where the last one ends. passthrough_child gives the same answers without a node of its own; tuples, slices, options and Separated behave alike. The documented law that start_location and end_location are both Some or both None, and the agreement of a node with its children, are preserved by every impl, hence hold at every depth of every tree the parser can build; there the answers of the impls are those all other properties about trees speak of. The macro refuses exactly unions and unknown attributes. Finding: the accepted attribute name = \"..\" has no effect.", "quantifier": "every declaration (any number of fields and variants, named or not), every value, every nesting of impls to any depth", "why_tests_cant": "the law has to survive arbitrary nesting of derived and generic impls; tests look at a few trees", "anchors": ["macros/src/derive_tree_node.rs", "src/parse/tree_node.rs", "src/parse/cst/rules/helpers.rs: Separated", "src/parse/cst/rules/mod.rs: ZoiDelimiter, ZoiText", "src/parse/cst/rules/selmaho.rs: token_types"]}
{"id": "C73", "title": "The command line tool", "statement": "The tool never fails for any options, at a terminal or piped, below 4 GiB of input. It works on the input without the white space around it, and places are counted from where that part begins. For each text it prints, in this order: with --decompose all its words with what stands there; a lexing error and then nothing else; or with --lex all its tokens with what stands there, and with --cst the tree, parse error or unlexable token of C40/C71 and the arena message. At a terminal what is printed for a line is what is printed when that line is the whole input: it depends neither on earlier nor on later lines, and the last line needs no newline. It prints the usage message iff none of the three options is given.", "quantifier": "every combination of options, every input (terminal or pipe), every number of lines, both build modes", "why_tests_cant": "quantifies over all inputs and all sessions of any length; tests run the tool on a few lines, if at all", "anchors": ["examples/main.rs: main, repl, WithInput, DebugWithIterator"]}
{"id": "C74", "title": "How a text is written does not matter to how it is read", "statement": "Two texts whose words are classified alike (in particular: the same words) are read alike as long as no word quotes what follows or ends the text: lexing gives the same classes and flags for the same words, and parsing gives trees made alike, or errors of the same kind at the same word. So none of these changes the reading: writing the words out with spaces between them (for a brivla cut off after its stress with a word right behind it see C56); other separators between two words, or more of them; inserting or removing commas inside words; exchanging h and the apostrophe.", "quantifier": "all texts shorter than 4 GiB of Unicode scalar values without quoting words and fa'o, all such rewritings, both build modes", "why_tests_cant": "relates pairs of texts of unbounded size through decomposition, classification, lexing and parsing; tests compare single pairs", "anchors": ["src/decompose/mod.rs: decompose", "src/lex/mod.rs: lex", "src/parse/cst/mod.rs: parse"]}
{"id": "C75", "title": "The case of consonants", "statement": "Writing consonants and y in the other case (vowels unchanged) moves no word: decomposition gives the same spans. Brivla and names keep their class and flag, and if only such words change, the text is read alike. Cmavo do not: a word with a capital letter is never one of the listed cmavo, and a listed cmavo written with a capital consonant or Y becomes an unknown cmavo. (The case of vowels does matter to decomposition: it is stress.)", "quantifier": "all texts shorter than 4 GiB, all choices of consonants and y to change, all words, both build modes", "why_tests_cant": "relates pairs of texts of unbounded size; tests compare single words", "anchors": ["src/decompose/mod.rs: decompose", "src/rules.rs: one_of", "src/lex/selmaho/classify.rs: classify"]}

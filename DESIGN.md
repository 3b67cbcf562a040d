# Formal model of mattfbacon/sneturfahi in Rocq (Coq 8.16.1)

sneturfahi turns a Lojban text into words (`decompose`), tokens (`lex`) and a
concrete syntax tree (`parse::cst`).  `/verif/rocq/theories` holds an executable
Gallina model of these three layers and theorems about it.

## Layers of the model

| file | models | how |
|---|---|---|
| `Base.v` | `&str`, byte offsets, panics, u32 arithmetic | a `str` is (address, list of chars); UTF-8 widths; slicing off a boundary is `None`/`Panic`; u32 overflow depends on the build profile (`Debug` panics, `Release` wraps) |
| `Peg.v` | combinators of `src/rules.rs:41-200` | deep embedding `pexp` + fuelled interpreter `run`, with the pointer subtraction and slicing of the Rust code |
| `Rules.v` | all 118 rules of `src/rules.rs:209-898` | generated text, one equation per Rust function |
| `Span.v` | `src/span.rs` | every function, u32 checks explicit |
| `Decompose.v` | `src/decompose/mod.rs` | the whole state machine, including `Peekable` |
| `Utf8.v`, `Selmaho.v`, `ClassifyTable.v`, `Classify.v` | `src/lex/selmaho/*` | byte buffer of 16 bytes, literal table, `from_utf8` |
| `Lex.v` | `src/lex/{mod,token}.rs` | the whole state machine |
| `Cst.v` | nom 7's combinators, `src/parse/cst/{parse_trait,error}.rs`, `src/parse/tree_node.rs`, the derive macros' output | deep embedding `gexp` of grammar expressions with node labels, fuelled interpreter `grun` returning tree and error |
| `CstRules.v` | `src/parse/cst/rules/{mod,selmaho,connectives,mekso,helpers}.rs` | 131 rules, one equation each |
| `Derive.v` | `macros/src/derive_parse.rs` | the macro as a function from declarations (with attributes) to parsers (functions on token lists) |
| `CstDecls.v` | the declarations, aliases, token types and handwritten impls of `src/parse/cst/rules/*.rs`, `parse_trait.rs` | 134 declarations as data; `impl env t`: the `Parse` impl of type `t`, given the parsers `env` of the types it mentions |
| `TreeDerive.v` | `macros/src/derive_tree_node.rs`, `src/parse/tree_node.rs`, handwritten impls of `TreeNode` | values as the answers their methods give; the macro as a function on declarations |
| `CstApi.v`, `CstMain.v` | `Cst::parse`, tree traversal and printing, the reporting done by `examples/main.rs` for one line | |
| `Tool.v` | `examples/main.rs` as a whole: options, `repl`, trimming, everything it prints | output is data; `str::trim`, `read_line` written out |
| `History.v`, `RulesApi.v`, `Cost.v` | sequences of calls on one `Decomposer`; the public rule functions; `Peg.run` instrumented with a count of rule invocations | |

Specifications (no reference to the model's helpers): `SpecText` (texts, gaps,
spelling), `SpecLex` (what lexing should give, as a relation), `SpecCmavo`,
`SpecCll` (the cmavo list of the reference grammar), `SpecMorph`, `SpecWords`
(sounds, word shapes), `SpecCst` (leaves, located, accepted), `SpecFragment`,
`SpecGen`, `SpecGrammar` (a context-free grammar), `SpecParts` (constructs and
nodes), `SpecEbnf` (the EBNF of CLL chapter 21), `SpecDerive`
(what the attributes of `derive(Parse)` promise), `SpecPrint` (what is seen of a
tree), `SpecTree` (what `derive(TreeNode)` promises), `SpecTool` (white space,
what the tool shows), `SpecReading` (texts that are read alike), `SpecCase` (texts up to the case of consonants).  Property theorems are in
`Props_*.v`; all other files hold proofs.

Proof machinery, all of it verified functions plus induction:

* `PegMeta`, `RulesTotal`: left-recursion/progress check of the rule table ⇒ every rule terminates; `PegChars`, `PegSim`, `SymPeg`: certified abstract interpreters for the rules (alphabet, simulation, symbolic execution).
* `Decompose{Spec,Facts,Machine,Sim,Suffix,Thms}`, `Dec*`: the state machine refines a functional description; restart at a word boundary.
* `Lex{Thms,Facts,Det,Quote}`: the lexer refines the relation of `SpecLex`, which is functional.
* `CstMeta`, `CstTotal`, `CstTree`, `CstNodes`, `CstShape`, `CstPrint`, `CstError`: metatheory of `grun`; `CstBalance` (weights), `CstAuto` (regular over-approximation): certified analyses of the rule table.
* `CstSimp`: certified partial evaluator: on token lists over a fixed alphabet the grammar equals a residual grammar without dead alternatives and frees; `CstIndic` (simulation for attitudinals), `CstTail` (parser at the end of the input), `CstSame` (renaming of classes), `CstGen`/`CstGrammar` (certified checker: everything a context-free grammar generates is accepted; contracts "expression `ex a` consumes exactly a phrase of part `a` when what follows fits `fol a`", by induction on derivation height), `CstParts` (calls of the residual grammar are nodes of the tree; nodes do not cross), `CstPara` (a run on `a ++ s :: b` simulates the run on `a` while nothing is left open: certified tables of which expressions can start with, or run past, a separator) are all about the residual grammar and transfer to `Cst::parse`.
* `CstEbnf`: certified inclusion of regular expressions over tokens and constructs (derivatives, with unfolding of chosen constructs): what each of the nodes of the rule table consumes is an instance of its EBNF construct; also a certified recogniser that shows texts not to be generated.

Fuel: recursive Rust functions become recursion on fuel whose exhaustion is a
separate outcome (`Out`/`Diverge`), and totality theorems prove that outcome
impossible for every input.

## Trusted base

* Coq's kernel (8.16.1), including `vm_compute`.
* What `Print Assumptions` lists: it is printed under every property theorem
  (see the "Assumptions" section at the end).
* The reading of the Rust sources: every model definition cites its lines.
* Rust standard library and nom behaviour as written in the model: `str::split`,
  `Peekable`, `str::get`, `split_at`, `from_utf8`, `trim_end_matches`,
  `min_by_key` (first minimum), nom 7's `opt`, `many0`, `many1`, `many_till`,
  `alt`, `tuple`, `not`, `cut`, `all_consuming`.

Not modelled: logging (`debug_rule`), `Display`/`miette` rendering of
diagnostics, memory allocation and stack depth (a deep recursion could overflow
the real stack), running time (except where a cost model says so), parsing of the
command line by `argh`, IO errors and text that is not UTF-8, `--verbose`, the
escapes of `{:?}`; of the derive macros, the handling of
token streams and spans (attributes are data here), lifetimes and trait bounds.
Chars are arbitrary `N` (a superset
of Unicode scalar values) except where `from_utf8` matters, where the theorem has
the hypothesis that the chars are scalar values.

## Plan per property

See the table; `_refuted` theorems are used where the code violates the
property as a user would state it (the witness is the finding).

| id | modelled by | proof |
|---|---|---|
| C01 | `decompose_all` | PEG metatheory: certified well-formedness check of the grammar (no left recursion, `repeat` bodies consume) gives a fuel bound; match/rest partition lemma excludes every panic; then induction over chunks |
| C02, C03 | decomposer state machine | invariant over call histories (`fold` over a list of `next`/`next_no_decomposition` operations) |
| C04, C05, C06, C07 | `decompose_all` | closed form: `decompose_all` = concatenation of per-chunk results; per-chunk tiling lemma |
| C08, C09, C10, C11 | same state machine | refinement of the state machine to (current words, remaining chunks); C11 refuted if false after `next_no_decomposition` |
| C12 | `run` on comma-inserted inputs | simulation lemma for all grammars over `pexp`: results are determined by the comma-free text (induction on fuel); trailing commas: refuted |
| C13 | `run` | simulation lemma under a relabelling of chars under which all char sets of the grammar are closed |
| C14 | `run` | certified alphabet check of the grammar + induction on fuel |
| C15, C16, C17, C30 | `classify` | UTF-8 decode of a filtered encoding; finite table swept by `vm_compute` and lifted |
| C18, C19, C20 | `run` | symbolic execution with rule equations / abstract interpretation of the grammar (certified) |
| C21, C22, C27, C28, C29 | `lex_all`, lexer histories | invariant over lexer states |
| C23 – C26 | lexer | equations for segments of the run |
| C31 – C34 | `Span.v` | arithmetic + boundary lemmas |
| C35 – C45 | `Cst*.v` | certified left-recursion/progress checker and induction on fuel; tree/leaf functions by structural induction |
| C46 | cost-instrumented `run` | lower bound by induction; the polynomial bound is refuted |
| C47, C48 | lexer | C47 refuted; C48 by determinism of `SpecLex` |
| C49 – C53 | `CstRules.v` | certified analyses (`CstNodes`, `CstBalance`, `CstAuto`); completeness parts by sentences checked in `CstWitness` |
| C54 – C60 | `Rules.v`, `Decompose.v` | exact characterisation of rules by symbolic execution; induction over the words of a chunk |
| C61 | `ClassifyTable.v` | finite comparison of the two tables (exhaustive: the property is about a finite list), lifted to all spellings by C16 |
| C62 | `CstRules.v` | simulation between the run with and the run without attitudinals, by induction on the run |
| C63 | same | analysis of what every rule does at the end of the input, induction on the run |
| C64 | same | renaming invariance, induction on the run |
| C65 | same | `CstGen` above |
| C66 | same | `CstPara` above; both directions by simulation of the run up to the separator, then induction on the number of separators |
| C67 | same | `CstGen` (`gen_parts`: the run of the parser calls the rule of each construct exactly on its tokens) and `CstParts` (each such call is a node of the tree, with the right leaves around it) |
| C68 | same | `CstEbnf`: induction on the run; for each node of the rule table, inclusion of its expression in the EBNF construct of its kind |
| C69 | `derive_parse` | inversion of the generated parser, field by field and variant by variant, over abstract parsers of the types |
| C70 | `implements`, `parse_root` against `cst_parse` | `CstDerive`: a grammar expression is computed from each declaration and shown to mean its derived parser; for every rule it is the rule of `CstRules`; uniqueness by induction on the fuel of `cst_parse`, existence from its totality |
| C71 | `main_cst`, `print_tree` | `PrintThms`: the list of indented lines determines the tree that is seen (injectivity of the flattening, induction on the number of lines); its leaves determine the tokens |
| C72 | `TreeDerive.v`, `Cst.v` | each impl has one canonical answer as a function of its fields' answers; law and agreement with `Cst.v`'s traversal functions by induction on the value |
| C73 | `Tool.v` | composition of C01, C04, C21, C22, C40; induction over the lines of a session |
| C74 | all of decomposition, classification, lexing, parsing | C23 turns words into tokens; C51; the rewritings by C06, C12, C13, C56 |
| C75 | rules, decomposition, classification | simulation on texts up to the case of consonants and y (PegSim.v, Caseless.v), as for C13; the table has no capitals |

## Validation of the model

The model was extracted to OCaml outside this repository and compared with the
expectations in `/repo`: all 34 unit tests of `decompose`, all 17 of `lex`,
`srasu.txt` (1334 words and tokens, with flags and spans) and all 1542 sentences
of `src/parse/cst/tests.rs` give the expected results.  Mutation tests of the
theorems are logged in `seeded/LOG.jsonl`.

## Assumptions

`Print Assumptions` stands under every property theorem and prints "Closed under
the global context" for each of them: no axioms at all are used.  (A loaded
standard library file, `Coq.ssr.ssrunder`, contains a module type
with parameters `Under_rel.*`; an axiom census of the whole environment
therefore lists them, although no theorem depends on them.)

Refuted statements.  Where the property a user would state is false of the code,
the claim is `partial` (or the exception is part of the property) and a theorem
with suffix `_refuted` exhibits a concrete input: C11, C12 (trailing comma), C18,
C25, C30, C32, C33, C38, C41, C42, C45, C46, C47, C54, C55, C56, C59, C61; the
examples `C62_needed`, `C63_refuted`, `C65_needed` and `C66_needed` show that hypotheses cannot
be dropped.

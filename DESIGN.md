# A Rocq model of prexel-rs: design

## Method

The code in /repo is read as text and transcribed, function by function, into total computable Gallina functions
(`rocq/theories/Model*.v`); every definition carries the file and lines it models. Small independent specifications
(`Spec*.v`) say in ordinary terms what is wanted; lemmas are proved in `Proof*.v`; the property theorems are in `Prop*.v`,
named `C##_...`, each followed by `Print Assumptions` and by examples that meet its hypotheses. A theorem named `..._refuted`
proves that the plain reading of a property is false of the code, by exhibiting the input; the property's statement in
properties.jsonl then is the exact one, with the exception named.

* Results: `res A := Ok a | Err kind | Panic`. The code's `PartialEq` on `Error` compares
  the kind only; the texts of errors are modelled in ModelMessage (C108), ModelSpoken (C109) and ModelVoice (C110) alone. `Panic` is any Rust panic (index, slice, unwrap, debug assertion, overflow in a debug build), a stack
  overflow, or a loop that does not end. A flag `dbg : bool` selects `debug_assertions`/overflow checks; theorems are for both.
* Effects: an operation has type `M W A := W -> res A * W`. `W` is the state of everything an operation may change (the
  random source, for user functions anything). Theorems are for every `W`.
* Text: a `char` is a code point (`N`), a string a list of them. Byte-level facts (`len`, `[..1]`) are modelled by the UTF-8
  length of a code point. White space and control characters are Rust's tables; lower-casing of non-ASCII characters
  (`to_lowercase`) is a parameter (`ulower` of the record `env`), everything about ASCII is concrete.
* Maps: `HashMap`s are association lists with the hash map's lookup rule: equal hash input, or a hash collision (an oracle
  `probe` in `env`), and equal keys. Iteration order is never used, or is quantified over.
* Numbers: evaluator, tokenizer and context are polymorphic in the number type (`num V`), its parser and its functions, as
  the Rust code is. Machine integers are `Z` with explicit ranges and explicit wrapping. `f64` is the standard library's
  `SpecFloat` (binary64, rounding to nearest even): plain definitions, no axioms, no primitive floats.
* Loops: structural recursion where there is one; otherwise fuel, with running out of fuel shown as `Panic` ("does not
  return") and a proof that it suffices wherever termination is claimed (C29, C33, C50).

## Files

| model | of |
|---|---|
| ModelBase, ModelText, ModelStr | results, chars, UTF-8, `ignore_case_str(ing).rs`, `check_token_name`, `str_ext.rs` |
| ModelContext, ModelDefault | `token.rs`, `function.rs`, `Config`, `Context` trait, `DefaultContext` (`context.rs`) |
| ModelEvaluator | `evaluator.rs`: `infix_to_rpn`, `rpn_eval`, `eval_tokens` |
| ModelMessage | the texts of the errors of `tokenizer.rs`, `evaluator.rs`; `error.rs`: `as_str`, `Display`; `token.rs`: `Debug` |
| ModelSpoken | the texts of the errors of `context.rs`, `prexel-server/src/services/evaluator.rs`, `prexel-server/src/endpoints/mod.rs`, `eval/src/eval_expr.rs`, `eval/src/repl/mod.rs` |
| ModelVoice | the texts of the errors of `ops/mod.rs` and `complex/mod.rs` |
| ModelSplit, ModelSplitBuilder, ModelTokenizer | `utils/splitter.rs`, `tokenizer.rs`; `Evaluator::eval` |
| ModelParse, ModelNum, ModelFloat | reading integers, number types (`num.rs`), f64 |
| ModelOps, ModelStd, ModelNewtype | `ops/checked.rs`, `ops/unchecked.rs`, `ops/mod.rs`, the constructors of `context.rs`; `numeric_traits/mod.rs` |
| ModelGamma | `utils/gamma.rs` |
| ModelBinary, ModelDecimal, ModelComplex | `binary/mod.rs`, `decimal/*.rs`, `complex/mod.rs` |
| ModelRepl | `eval/src/collections/carray.rs`, `repl/repl.rs`, `repl/mod.rs` |
| ModelError, ModelExample | `prexel/src/error.rs`, `token.rs` (Display, predicates); `prexel/examples/logical_ops.rs` |
| ModelLimiter | `prexel-server/src/main.rs` (workers, cookie middleware, rate limiter) |
| ModelTerminal | `eval/src/{writer,style}.rs`, `repl/repl_writer.rs`, `repl/repl.rs` and `repl/mod.rs` with their writes, `main.rs` (`eval`) |
| ModelServer | `prexel-server/src/**`, `eval/src/{eval_expr,list,main}.rs` |
| ModelListing | `prexel-server/src/services/info.rs` 18-68 |
| ModelJson | `prexel-server/src/endpoints/mod.rs`, `models/mod.rs`, `services/info.rs` (what serde makes of them) |

## Per property: what is modelled and how it is proved

* C01-C05, C09 (PropEvaluator, PropSteps...): the conversion with all four stacks; a specification tree with `print` (its
  tokens), `postfix`, `denote`; well-formedness is the precedence rule at each node; main theorem by induction on the tree
  with stacks and output generalised. C03: an inductive grammar, every sentence of which is the print of exactly one
  well-formed tree.
* C06-C08, C41: invariants of the conversion loop for arbitrary token lists, by induction on the rest.
* C10, C11, C17: splitter; induction on the length of the rest; maximal munch as an inductive relation.
* C12-C16: tokenizer; word-by-word relation; composition with C01-C05 and C25.
* C18-C24, C40: `DefaultContext` with its five maps; case-folding comparison and hash input.
* C25-C30, C43-C48: operators and constructors; contexts are characterised by a table of entries (`checked_is` etc.).
* C31, C32: `Z` with the 128-bit range; parser and printer in radix 2 and 10.
* C33, C49-C53: `Decimal` is an external type: its operations are a record `dlib` and the theorems assume `exact_decimals`
  (SpecDecimal): operations give the exact result if it is a 96-bit number with up to 28 places, `None` if out of range,
  else a rounding. `ref_lib` (ProofDecRef) is an executable implementation proved to satisfy this, so no theorem is vacuous;
  refutations that depend on rounding are for `ref_lib`.
* C34-C36: state machines for the history buffer, the key loop, the line handler; all key sequences.
* C37, C60-C63: decision logic of the endpoint, the listing and the command line over the context models.
* C38: base64 encoder on bytes (RFC 4648).
* C39: string helpers. C42, C59: frame properties. C54: the operator tables of all arithmetic contexts.
* C55, C56: f64; `stands_for` (SpecDouble) relates a double to a rational; exactness by the rounding lemma for `SpecFloat`.
* C57, C58: complex numbers: num_complex's field operations written out over f64, the rest of it arbitrary functions.
* C71: the decimal operations' rounding errors are carried through the 99 terms of the series (ProofDecReal), the sum is
  compared with the real sine's series (ProofReals), the reduction modulo the constant 2 pi with the real period by an
  enclosure of pi by Machin's formula, computed in Q.
* C72: rounding through repeated squaring and the 999-term series (ProofDecLn), the series' remainder by the mean value
  theorem (ProofLn), an enclosure of ln 10 computed in Q.
* C73: the continued fraction's tails are expressed through iterated integrals of the exponential (ProofExp), so each level
  satisfies an exact recurrence; the truncation and the rounding errors are propagated down it (ProofDecExp).
* C75: the levels of the continued fraction are related to the real arctangent through an exact recurrence (ProofAtan), then
  rounding is propagated (ProofDecAtan); the reductions by addition formulas and Lipschitz bounds.
* C76: Newton's steps in relative error t -> G(t): linear decrease from 3e9, then quadratic, then a band of rounding width.
* C77: half-angle and logarithm forms of the inverse functions over R; Lipschitz bounds for them; the square root's Newton steps.
  Assumes SpecRoots.good_roots of the decimal-double conversions (start value within a factor 3/2), met by the reference decimals.
* C78: source trees carry their numerals as text; the text theorem C16 composed with the value theorems C49, C55, C67; FromStr is a parameter with a stated contract and two instances.
* C79: `Error` as a kind with an optional inner error of any type with a display function; injectivity of `Token`'s Display by cases (numbers by hypothesis, counts by C63).
* C80: the grammar of formulas is an inductive relation; each derivation is turned into a tree whose printed words are the formula's, then C16.
* C81: structural induction on trees (`denote` ignores brackets; replacing a variable by an expression of its value), then `eval_tokens_print`.
* C82: `SpecCompare.same_outcome` relates two runs; a simulation lemma over the evaluator (`ProofCompare`) lifts agreement of the registered operations to texts, and the two lists of operations are compared member by member.
* C83: no function of decimal_ext.rs constructs an error (structural lemmas over their loops), so the macros' `Overflow` and argument counts are all there is; `random` reduces to the rounding lemmas of C68.
* C84: `ModelLimiter` has one store per worker; invariants over the history of requests (requests left and expiry of an entry against what was served).
* C85: absolute errors of the 14 quotients and sums by induction (`ProofGamma`), relative errors of the product, sensitivity of the power and the exponential to their arguments in the reals (`PropGamma`); the hypotheses about the library are met by a library made of the real functions (`best_libm`).
* C86: the same for the decimal code: error of each quotient and sum, relative errors of the product (`ProofDecGamma`); range of the sum by interval reasoning in the rationals (`ProofDecFactor`); the rounding to 15 places by its specification (`SpecDecGamma.rounds_places`); the refutation compares both formulas at 0.4. That the root's iteration ends is a hypothesis, checked for the reference decimals.
* C87: a reference interpreter and its grammar (`SpecCalculator`: unbounded integers with a range check) is written without the model; by induction on trees it agrees with the context's denotation (`ProofCalculator`), which C16 links to texts.
* C88: C37 (what a request evaluates) composed with C87 at 128 bits.
* C89: an invariant of the RPN loop's stack for any set of values closed under the context (`ProofClosed`), then closure of all 42 + 36 functions and the operators of integer contexts, one lemma per family (`PropRange`).
* C90: from the rules for words (C13), the frame theorem C59 and the words of the lexer (C11).
* C91: a reference interpreter over unbounded rationals (SpecExact.v); the unchecked context over any `num V` that computes exactly agrees with it, by induction on the expression and on the loop of `!`; shown for the rationals themselves.
* C92: the words of a text with imaginary numbers, numbers and `i`s joined, are words of the same text in the context with complex numbers off; C15's result there carries over because the tokenizer asks of the previous word only whether it ends an operand. Then C57 gives the values.
* C93: an invariant of the postfix loop: the values on the stack are those of a list of trees run in order from the initial state, whose leaves and operations are the postfix tokens read so far; with C41 (the postfix tokens are the written ones).
* C94: two contexts that differ in their configuration only (`configured`) are run in lock step; builders by induction on the list of calls; contexts by showing each registration step commutes with replacing the configuration.
* C95: the evaluator's own errors are followed through every loop (they are InvalidInput and InvalidExpression); the postfix it runs has the operations of the input (C03's conservation), so any other error was raised by one of them; each registered operator and function is then compared with the table of SpecBlame.
* C96: a partial interpreter over Q (SpecDecCalc) and induction over expression trees, with the lemmas of C33, C49 - C52 for the operators and functions; texts by C16, the server by C37.
* C97: the builders (ModelSplitBuilder) and arbitrary rules; cutting as an inductive relation (SpecSplitter), existence and uniqueness by induction on the length of the text; the builder by induction over its calls.
* C98: serde's reading of bodies (ModelJson: UTF-8, JSON trees, derived deserialisation, paths) against RFC 8259's grammar and a relation between values and requests (SpecJson); soundness and completeness of the reader by induction on texts, of the request reader by induction on members.
* C99: serde_json's writing against the same grammar; unambiguity from the completeness of the reader (it is a function).
* C100: query strings as an inductive relation with exactly one reading, proved total and functional; the fields by counting occurrences.
* C101: the listings as maps over the tables in any order of iteration (ModelListing), against the log of the calls (SpecListing); invariant of histories: ASCII keys, pairwise not spellings of each other, and membership characterised by the log.
* C102: an unknown word becomes an unknown token (C13's relation), which the conversion to postfix refuses before anything is called (ProofTokens2); adjacent operator characters fall in one word by induction on the words read (SpecLex2); no name of a shipped context has two, by computation on the names and the definition of equality ignoring case.
* C103: the endpoint from bytes to bytes (ModelJson.post_eval); composition of C98, C88, C99 and C100, and a proof that integers are written canonically.
* C104: a reference calculator (SpecBinCalc) written without the model's definitions; induction on trees, the names by computation (ProofBinCalc), then C37, C32 and C103_requests.
* C105: a reference calculator as a relation between trees and results (SpecDoubleCalc), from SpecRound's IEEE operations and SpecFunctions' table; induction on trees with one lemma for each name (ProofDoubleCalc, ProofDoubleCalc2); determinacy by a second induction; then C37, C61.
* C106: C103_requests, C37, C96, C105.
* C107: the reference calculator of complex numbers as a relation (SpecComplexCalc), from SpecRound's IEEE operations; induction on trees (ProofComplexCalc); determinacy by a second induction (ProofComplexCalc2); then C92, C37, C61, C106.
* C108: a second transcription of the tokenizer and the evaluator that keeps the texts of errors (ModelMessage); erasing the texts gives the first one (ProofMessage); the causes as inductive predicates on tokens and words (SpecMessage); invariants of the conversion (ProofStillOpen, ProofMessage2) and inductions on the loops (ProofMessage2, 3).
* C109: the registrations, the server, the command line and the prompt again with the texts of errors (ModelSpoken); erasure to ModelDefault, ModelServer, ModelRepl (ProofSpoken); names that are refused as inductive predicates (SpecSpoken); with C108 for the evaluator and C99, C100 for the bytes. What a number type's `from_str` says of a text that is no number is left open.
* C110: the four errors in `ops` and `complex` that carry a text of their own (ModelVoice), erased to the functions of ModelOps and ModelComplex; that these voices meet the hypothesis of C108_kinds; the server's responses by C109, C108, C87, C96, C105. How doubles are printed (`Display`) is left open.
* C111: a predicate on trees that mentions no context (SpecUsualTree), equivalent to SpecExpr's `wf` in every shipped arithmetic context (by C54's table of operators); uniqueness by C03, values by C16, C96, C105, C107; requests to the server, from bytes to bytes, by C106 and C107 (PropUsualServer). Operator names are taken to be ASCII (lower case beyond ASCII is a parameter).
* C112 (PropAggregates): the loop over the arguments, by induction on them; release builds by congruence modulo 2^width, debug builds by the first part that does not fit.
* C23 (PropRegister): the three outcomes of a registration, from those of the loop over the aliases.
* C74: the loop's subtractions are exact, its products are IEEE products; error by induction over the factors.
* C64 and later: see the `note` of each claim in MANIFEST.json.

## Trusted base

* Coq 8.16.1's kernel (with `vm_compute`), and the reading of the Rust code by the author of the model: nothing is
  extracted from or run against the Rust code.
* `Print Assumptions` prints "Closed under the global context" for every theorem listed in MANIFEST.json except those about
  real numbers: those of C71 to C73, C75 to C77, C85 and C86 (each file's `Print Assumptions` shows it) rest on the axioms of Coq's `Reals`: `ClassicalDedekindReals.sig_forall_dec`,
  `ClassicalDedekindReals.sig_not_dec`, `FunctionalExtensionality.functional_extensionality_dep`, `Classical_Prop.classic`.
  Only Coq's standard library is imported, and there are no functors, module types, `Admitted`s or disabled checks. (Other
  axioms in vcheck's report come from loading libraries, not from these theorems.)
* Rust's semantics as summarised above (integer overflow rules, `Vec`, `HashMap`, `str` methods).

## What is not modelled

* rust_decimal: assumed as stated above. num_complex: transcendental functions and its text format are parameters; the field operations
  and `%` are transcribed from version 0.2.4. The platform's mathematical library (`sin`, `powf`, ...) and the random source:
  parameters, arbitrary functions (what a theorem assumes of them it says). NaN signs and payloads are not distinguished.
* `f64::from_str`/`Display`, `Decimal::from_str`/`Display`, `Complex`'s: parameters (`s_read_...`, `s_show_...`).
* Out of memory; `Vec::with_capacity` for huge sizes; stack depth except where the code itself recurses without end.
* HTTP, actix, the `PORT` variable, logging. serde, serde_json, serde_path_to_error and serde_urlencoded are modelled from their
  documented behaviour on these types (`ModelJson`), not from their code (a body that begins with no JSON value, as RFC 8259
  has it with surrogate escapes paired, is no request), and JSON numbers are read by a parameter. actix-ratelimit is modelled from its documentation (`ModelLimiter`): fixed windows
  per identifier, looking up and decrementing in one step.
* clap's parsing of the command line; crossterm: key events are inputs, what is sent are commands (text in a style, clear row,
  move left) to a modelled screen, not escape sequences; characters of width other than one; `repl/theme.rs` (unused).
* Descriptions of functions (`descriptions.rs`), `Debug` of errors, `sorted` (unused), benches.

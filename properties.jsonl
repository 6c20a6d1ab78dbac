{"id": "C01", "title": "Binary operators follow precedence and associativity", "statement": "Evaluator::eval_tokens on an expression built from numbers, variables, constants, groups, function calls, postfix operators and registered binary operators returns exactly what evaluating its syntax tree returns, where the tree is the one in which an operator of higher precedence binds tighter, and operators of equal precedence group to the left when the left one is Left-associative and to the right when it is Right-associative. infix_to_rpn returns that tree's postfix order.", "quantifier": "every expression tree of any size and depth, every context (any operators, precedences, associativities, functions), every number type", "why_tests_cant": "the nesting depth, the number of operators and the precedence/associativity tables are unbounded; tests fix a few expressions and one table", "anchors": ["prexel/src/evaluator.rs: infix_to_rpn, push_binary_function, rpn_eval", "prexel/src/function.rs: Precedence, Associativity"]}
{"id": "C02", "title": "Scope of a prefix operator", "statement": "A prefix operator written directly before a number, variable or constant applies to exactly that atom (tighter than any postfix or binary operator: -2^2 is (-2)^2). Written before a group, a function call or another prefix operator, it applies to the whole rest of the enclosing group, argument or expression: -(3) - 2 is -((3) - 2). The usual rule that a prefix operator binds tighter than a binary operator of lower precedence is therefore false.", "quantifier": "every expression tree with prefix operators, every context", "why_tests_cant": "which tokens are captured depends on an arbitrarily long suffix of the expression", "anchors": ["prexel/src/evaluator.rs: push_number, push_unary_function, push_binary_function"]}
{"id": "C03", "title": "Every grammatical token sequence has exactly one reading and is evaluated by it", "statement": "For every token sequence of the infix grammar (operand (binary-operator operand)*, operands being optional prefix operators, a primary, postfix operators) whose operators are registered, infix_to_rpn succeeds, and the value eval_tokens returns is that of the unique tree the precedence rules give to the sequence.", "quantifier": "every token sequence derivable from the grammar, of any length and nesting", "why_tests_cant": "the set of sentences is infinite; a test shows one sentence", "anchors": ["prexel/src/evaluator.rs: infix_to_rpn, rpn_eval"]}
{"id": "C04", "title": "Implicit multiplication", "statement": "With implicit_mul enabled, a number followed by a function, constant, variable or open group, and a close group followed by a number, variable, constant, function or open group, multiply. The implied * groups to the right and binds to the operand on its left tighter than any operator already read: 6/2(3) is 6/(2*3), 2^3(4) is 2^(3*4), 2(3)(4) is 2*((3)*(4)). With implicit_mul disabled no * is ever inserted.", "quantifier": "every expression with any number of juxtapositions at any depth; both configurations", "why_tests_cant": "depends on the whole operator stack, which is unbounded", "anchors": ["prexel/src/evaluator.rs: infix_to_rpn", "prexel/src/context.rs: Config::implicit_mul"]}
{"id": "C05", "title": "A function is called with exactly its written arguments, in order", "statement": "f(a1, ..., an) with n >= 1 calls the registered function exactly once with the slice [value a1, ..., value an], for arguments of any form, nested calls included. (A call written with no arguments, f(), is not covered: it is given one argument, the value to its left if there is one: refuted.)", "quantifier": "every function, every n >= 1, arguments of any nesting depth", "why_tests_cant": "argument counts and nesting are unbounded and counts live on a stack shared by all the enclosing calls", "anchors": ["prexel/src/evaluator.rs: push_comma, push_grouping_close, check_comma_position, rpn_eval"]}
{"id": "C06", "title": "A successful evaluation implies balanced, matching brackets", "statement": "If eval_tokens returns Ok, the grouping symbols of the token sequence are balanced and every closing symbol closes the most recent open one and is of the same kind.", "quantifier": "every token sequence, grammatical or not; every context", "why_tests_cant": "a malformed sequence can have any length and shape", "anchors": ["prexel/src/evaluator.rs: push_grouping_close, infix_to_rpn, rpn_eval", "prexel/src/context.rs: Config::get_group_symbol"]}
{"id": "C07", "title": "Evaluating a token sequence never panics", "statement": "infix_to_rpn and eval_tokens return Ok or Err for every token sequence whatever, in debug and release builds: no index is out of range, no subtraction underflows, no debug assertion fails, provided the registered functions themselves do not panic.", "quantifier": "every token sequence (including Unknown and ArgCount tokens supplied by the caller), every context, both build profiles", "why_tests_cant": "panics hide in rare position/stack combinations; the space of sequences is infinite", "anchors": ["prexel/src/evaluator.rs: infix_to_rpn, check_comma_position, rpn_eval"]}
{"id": "C08", "title": "Only well-formed expressions are accepted", "statement": "If eval_tokens returns Ok then the token sequence contains no Unknown or ArgCount token, its numbers of operands and operators agree, every comma is inside a function call's group, and every function name is registered. (That only grammatical sequences are accepted is refuted: (2 3 +) evaluates to 5.)", "quantifier": "every token sequence, every context", "why_tests_cant": "the set of malformed sequences is infinite", "anchors": ["prexel/src/evaluator.rs: infix_to_rpn, check_comma_position, push_comma, rpn_eval"]}
{"id": "C09", "title": "Errors are those of the leftmost innermost failing operation", "statement": "On a grammatical expression, if some operator or function call fails or a value is missing, eval_tokens returns the error kind of the first failing operation in left-to-right, innermost-first order, and no operation that depends on it is called.", "quantifier": "every expression, every assignment of failures to operations", "why_tests_cant": "the number of failing-operation combinations is exponential in the size of the expression", "anchors": ["prexel/src/evaluator.rs: rpn_eval", "prexel/src/error.rs: ErrorKind"]}
{"id": "C10", "title": "The splitter loses only whitespace", "statement": "Concatenating the words a splitter of the repository returns (default, binary, REPL) gives the characters of the input in order, with white space left out; nothing else is left out unless a number with a decimal point is followed by a second point; a splitter that keeps white space returns the whole input. (Without that condition it is refuted: 1.2.3 loses a '.'.)", "quantifier": "every Unicode string", "why_tests_cant": "strings are unbounded; tests look at a dozen", "anchors": ["prexel/src/utils/splitter.rs: DefaultSplitter::split_into_tokens, rules::SplitNumeric, SplitIdentifier, SplitOperator, SkipWhitespace"]}
{"id": "C100", "title": "Query strings of the server", "statement": "A query string has exactly one reading as names and values (parts between ampersands, cut at the first equals sign, plus and percent decoded), and the server reads it so. The result is given bare exactly if only_result occurs once and is `true`; names are listed for the type that a single `type` names in lower case; in all other cases - other spellings, other values, the name given twice - silently as if nothing was asked for: JSON, and the names for decimal numbers.", "quantifier": "every query string", "why_tests_cant": "infinitely many query strings, with duplicates, percent escapes and unknown names", "anchors": ["prexel-server/src/endpoints/mod.rs: EvalParams, GetFunctions, eval, get_operators, get_constants, get_functions"]}
{"id": "C101", "title": "What the server lists about functions, operators and constants", "statement": "After any sequence of registrations with ASCII names (successful, refused or panicking), whatever the order in which the hash maps are iterated: every listed function or operator can be used under its listed name and has the listed aliases and description; every usable name is another spelling of the name of exactly one entry of its kind; binary operators are listed first, then unary ones. If no registration panicked the entries are exactly the aliases and the name of each successful registration (an alias has an entry of its own, listing all aliases but not the main name; the name has none if one of its own aliases is another spelling of it). Constants have one entry each, in the spelling in which they were first added and with the value they were last given.", "quantifier": "every history of context calls with ASCII names, every order of iteration of the maps", "why_tests_cant": "histories and iteration orders are unbounded, and case-insensitive collisions between names and aliases are easy to miss", "anchors": ["prexel-server/src/services/info.rs: get_operators, get_functions, get_constants", "prexel/src/context.rs: add_function_as, add_unary_function_as, add_binary_function_as, add_constant"]}
{"id": "C102", "title": "Unknown words, and operators written together", "statement": "A text with a word that is no number, name, operator, comma or grouping symbol has no value, with any splitter: the result is InvalidInput or InvalidExpression (or the panic of C12, on texts that are not ASCII), no operator or function is called and no random number drawn. Operator characters written together are one word for all four shipped splitters: in every shipped arithmetic context (checked, unchecked, decimal, complex; with any variables named by identifiers) no text in which two of them stand next to each other, such as 2*-3, 3!+1 or max(1,-2), has a value; in the binary context only << >> == != <= >= may be written so.", "quantifier": "every text, context, number reader and splitter; every two operator characters, every text that has them next to each other", "why_tests_cant": "the texts around the two characters are arbitrary, and a single accepted one would be a different program", "anchors": ["prexel/src/utils/splitter.rs: SplitOperator, SplitWithOperators", "prexel/src/tokenizer.rs: tokenize", "prexel/src/evaluator.rs: infix_to_rpn, eval"]}
{"id": "C103", "title": "Integer requests, from the bytes received to the bytes sent", "statement": "A POST /eval whose body's bytes are, after white space and whatever follows, the JSON of a request, of any type, is answered with status 200 and the bytes of its evaluation's result (bare if the query has only_result exactly once and true, and otherwise as the JSON object with that string as its result and a null error), or the JSON object with a null result and the error's message. For a request for integers with accepted variables and an expression written with the words of a calculation: if the calculator of C87 computes z, the result is z's canonical decimal numeral (a minus for negative numbers, no leading zeros); if it fails, the message is that of its error; and the server panics exactly if the calculator does. The order of the members and of the variables does not matter, nor do unknown members.", "quantifier": "every request text, expression, set of variables, query string, build mode and library of powers", "why_tests_cant": "the whole path (UTF-8, JSON, variables, words, tokens, evaluation, numerals, JSON) must compose for every input, and each stage's inputs are the previous stage's unbounded outputs", "anchors": ["prexel-server/src/endpoints/mod.rs: eval", "prexel-server/src/services/evaluator.rs: eval_expression", "prexel-server/src/models/mod.rs: Expression, EvaluatedExpression", "prexel/src/evaluator.rs: eval"]}
{"id": "C104", "title": "The binary context is a calculator of 128-bit words", "statement": "Evaluating the text of an expression of numbers (decimal, or b and binary digits), variables, brackets, complements (~, not) and the operators | ^ & == != > < >= <= >> << (by any of their names, in any case of letters) in a binary context gives what a reference calculator computes on the tree that the context's precedences give: the same 128-bit number, the same error or, for a shift by an amount out of range in a debug build, the same panic (a release build takes the amount modulo 128). So does the server for a request of binary type, whose variables are read as decimal numerals, and the response's bytes are the binary digits, without leading zeros, of the result modulo 2^128, bare or as JSON as the query says.", "quantifier": "every expression, text, assignment of variables, build mode, request text and query string", "why_tests_cant": "expressions, texts and variables are unbounded and every combination of operators must group and compute right", "anchors": ["prexel/src/binary/mod.rs", "prexel/src/utils/splitter.rs: SplitBinaryNumber", "prexel-server/src/services/evaluator.rs: eval_expression", "prexel-server/src/endpoints/mod.rs: eval"]}
{"id": "C105", "title": "The default contexts of doubles are a calculator", "statement": "Evaluating the text of an expression of numbers, variables, the constants PI and E, brackets, signs, !, the operators + - * / mod ^ and the named functions (by any of their names, in any case of letters) in the checked or the unchecked default context of f64 gives a result that a reference calculator allows on the tree that the precedences give: IEEE 754's correctly rounded operations; DivisionByZero for / and mod by zero; the platform's functions between the conversion of degrees and the snapping to near integers, NAN for a result that is not finite; sum, product and avg step by step from the left; max and min the first best; floor, ceil, round, trunc of the snapped number (checked only); InvalidArgumentCount for a wrong number of arguments; NegativeValue for a negative factorial and the descending product (with the code's gamma of the rest) up to 2^53; and the leftmost failing subexpression's error. Without factorials, and when the platform's functions give doubles, the calculator allows exactly one result. So do the server for a request of type float (checked) and the command line (unchecked).", "quantifier": "every expression, text, assignment of variables, platform library, build mode, request", "why_tests_cant": "expressions, texts and doubles are unbounded, and every combination of operators and functions must group and round right", "anchors": ["prexel/src/context.rs: DefaultContext", "prexel/src/ops/mod.rs", "prexel/src/ops/checked.rs", "prexel/src/ops/unchecked.rs", "prexel/src/evaluator.rs: Evaluator::eval", "prexel-server/src/services/evaluator.rs: eval_expression", "eval/src/eval_expr.rs"]}
{"id": "C106", "title": "Requests of every type, from bytes to bytes", "statement": "The bytes of a POST /eval whose body is the JSON text of a request (in any layout, with unknown members, in any order) of any type are answered with status 200 and the bytes of the evaluation of its expression in its type's context with its variables: the shown result bare (only_result given once as true) or as the JSON object of that result and a null error, or the JSON object of a null result and the error's message; the server panics exactly if that evaluation does; and a request some variable of which is not accepted is answered with an error. For decimals, the type of requests that name none, the result shown is a decimal of the value that the calculator of rationals gives, and for floats a double that the calculator of doubles allows.", "quantifier": "every request text, query string, type, expression and variables", "why_tests_cant": "request texts, expressions and variables are unbounded", "anchors": ["prexel-server/src/endpoints/mod.rs: eval", "prexel-server/src/models/mod.rs", "prexel-server/src/services/evaluator.rs: eval_expression"]}
{"id": "C107", "title": "Complex contexts are a calculator", "statement": "Evaluating the text of an expression of real and imaginary numbers (2, 0.5i, 3 i), variables, the constants PI, E and i, brackets, signs, the operators + - * / mod ^ and the named functions but random (in any case of letters) in a complex context gives a result that a reference calculator allows on the tree that the precedences give: the textbook formulas of complex arithmetic with IEEE 754's correctly rounded operations at each step; DivisionByZero for / and mod by a zero; mod by the quotient with both parts rounded towards zero; sum, product and avg step by step from the left; num_complex's functions, and the reciprocals of their results for sec, csc, cot and the like; InvalidInput for a logarithm to a base whose imaginary part is zero (a defect: only other bases are taken, by their real part); InvalidArgumentCount for a wrong number of arguments; and the leftmost failing subexpression's error. When num_complex's functions, the numerals and the variables are doubles, the calculator allows exactly one result. So do the server for a request of type complex, from bytes to bytes too, and the command line.", "quantifier": "every expression, text, assignment of variables, library of functions, build mode, request", "why_tests_cant": "expressions, texts and pairs of doubles are unbounded, and every combination of operators and functions must group and round right", "anchors": ["prexel/src/complex/mod.rs", "prexel/src/ops/mod.rs", "prexel/src/evaluator.rs: Evaluator::eval", "prexel-server/src/services/evaluator.rs: eval_expression", "eval/src/eval_expr.rs"]}
{"id": "C108", "title": "What error messages say", "statement": "Every error message of an evaluation tells its cause. A well-formed expression reports what the first operation to fail, in the order of evaluation, reports. Any other sequence of tokens reports a fault in the order of its tokens that is there (a function without parentheses, empty brackets, a comma at the start, after an opening or before a closing symbol, outside of every call that is open there, or in brackets that no function's name precedes, a unary postfix operator with nothing before it, a closing symbol that does not close the innermost symbol open there, the innermost symbol still open at the end, a token without a meaning, with custom_function_call a function whose number of arguments is not known, an operation without operands with the list of all the tokens, a missing `*` for an implied multiplication), a name among them that the context does not have, or the message of an operator or function among them that failed. A text reports that it is blank, that an operator stands first or last in it, that a number followed by i cannot be read, or one of the above; no name of a text is reported missing but that of an operator that is only unary and used as a binary one. Messages of kinds other than Empty, InvalidInput and InvalidExpression are the standard text of the kind, unless an operator or function says otherwise. Without the texts, the evaluation is the one of the other properties. The standard texts are fixed, and no two kinds of errors have the same.", "quantifier": "every context, text, token sequence, state, build mode, and texts of operators and functions", "why_tests_cant": "token sequences and contexts are unbounded; a wrong message appears only for the combination of faults that reaches it", "anchors": ["prexel/src/error.rs: ErrorKind::as_str, Error::fmt", "prexel/src/token.rs: Token::fmt", "prexel/src/tokenizer.rs: Tokenizer::tokenize", "prexel/src/evaluator.rs: rpn_eval, infix_to_rpn"]}
{"id": "C109", "title": "What contexts, the server and the command line say of errors", "statement": "A context refuses to register a variable, constant, function or operator with a message that says exactly why: in debug builds that the name is blank, contains whitespace, or (if it contains none) control characters, naming the sort of thing to be named; otherwise that the name is taken (by a constant for a variable, by a variable for a constant, ignoring case, or by a function or operator of the same sort), with the name as given; the context is unchanged. The server answers a request whose variables are all accepted with the result, or with the message of the evaluator, in the bytes of the JSON response, and any other request with what is said of the first variable (in the order in which the map is iterated) that is not accepted: that its text is no number, or why its name is refused. The command line prints the result or the evaluator's message. At the prompt, a line with two equals signs is an invalid assignment, an assignment of a text that is no number says what reading it says, one to a refused name says why, and an expression prints the evaluator's message. Without the texts all of this is as the other properties say.", "quantifier": "every context, name, value, request, body, query, line, state, build mode, number type, and texts of operators, functions and number parsers", "why_tests_cant": "names, requests and contexts are unbounded; the message depends on which fault is met first", "anchors": ["prexel/src/context.rs: check_token_name, set_variable, add_constant, add_function_as, add_unary_function_as, add_binary_function_as", "prexel-server/src/services/evaluator.rs: eval_expression", "prexel-server/src/endpoints/mod.rs: eval", "eval/src/eval_expr.rs: EvalExpr::eval", "eval/src/repl/mod.rs: eval_loop"]}
{"id": "C11", "title": "Splitting terminates and yields maximal, non-empty tokens", "statement": "Each shipped splitter (default, binary, REPL, REPL with binary numbers) cuts every string in exactly the words that maximal munch prescribes (number: digits with at most one point; identifier; run of operator characters; any other single character; in binary splitters also b and binary digits; in REPL splitters also $ and a name), white space separating words; this reading exists and is unique for every string. For every list of the shipped rules, splitting terminates, and the words are non-empty and consist of the input's characters in order; the words of the shipped splitters contain no white space.", "quantifier": "every Unicode string, every rule list built from the shipped rules", "why_tests_cant": "strings are unbounded", "anchors": ["prexel/src/utils/splitter.rs: DefaultSplitter, rules"]}
{"id": "C110", "title": "The errors of prexel's own operators and functions, as the user reads them", "statement": "All errors of prexel's own operators and functions show the text of their kind, but for those of random and, of complex numbers, log. Of integers, doubles and decimals, random(x, y) is refused as invalid input exactly if y is below x, with a message naming both. Of complex numbers, log(x, b) with a real b is always refused, and the message asks for a decimal base; random refuses an argument that is not real as such, and two reals of which either has a negative sign with a message that the first exceeds the second, whether or not it does; it refuses nothing else as invalid input. The server's response to a request of any type whose expression fails with an error other than an empty or invalid expression or invalid input contains the text of the error's kind; for integers this text is that of the kind the calculator of C87 computes, one of overflow, division by zero, negative value and wrong number of arguments, for decimals that of C96's calculator and for doubles of C105's.", "quantifier": "every function name in any case, argument list, random source, request body, query, type, variable set, expression and build mode", "why_tests_cant": "arguments, requests and expressions are unbounded, and every one of them must be answered with the text of its own error", "anchors": ["prexel/src/ops/mod.rs: math::RandFunction", "prexel/src/complex/mod.rs: LogFunction, RandFunction", "prexel/src/error.rs: ErrorKind", "prexel-server/src/endpoints/mod.rs: eval", "prexel-server/src/services/evaluator.rs: eval_expression"]}
{"id": "C111", "title": "Which expressions the shipped arithmetic contexts read, by rules that mention no context", "statement": "In every shipped arithmetic context (checked or unchecked over any number type, decimal, complex), whatever its variables, the trees of which the evaluator reads a text are exactly those allowed by fixed rules: + and - bind weakest, then * / mod and implied multiplication, then ^, which groups to the right while the others group to the left; a prefix + or - on a number or name takes that, on anything else it takes all that follows; ! follows numbers, names, groups and calls (and does not exist for complex numbers); calls have arguments, and parentheses unless other brackets are enabled; multiplication is implied only if enabled. No two allowed trees are written alike, and the text of an allowed tree evaluates to what the tree says, so that the calculators of decimals, doubles and complex numbers (C96, C105, C107) compute the values of all allowed expressions made of the operators and functions they know. A request to the server holding a text of an allowed expression is answered, bytes to bytes, with the value the expression says, for each of the number types the server offers.", "quantifier": "every shipped arithmetic context, number type, configuration, variable set, expression tree with ASCII operator names, text of it, and build mode", "why_tests_cant": "trees and texts are unbounded, and the operator tables of four families of contexts must agree", "anchors": ["prexel/src/evaluator.rs: infix_to_rpn", "prexel/src/context.rs: DefaultContext", "prexel/src/ops/checked.rs", "prexel/src/ops/unchecked.rs", "prexel/src/ops/mod.rs", "prexel/src/decimal/mod.rs", "prexel/src/complex/mod.rs"]}
{"id": "C112", "title": "Aggregates in unchecked integer contexts", "statement": "In an unchecked context of integers, sum and product of one or more values are in a debug build the exact total, or a panic if the total of some first part of the list is not representable, and in a release build the exact total modulo 2^width; avg is the truncated quotient of what sum gives by the number of arguments, and panics if sum does or if that number is not a value of the type; max and min of two or more values are the greatest and the least of them; with too few arguments each reports InvalidArgumentCount.", "quantifier": "every integer type, build mode, configuration, platform library and list of values of any length", "why_tests_cant": "lists are unbounded, and wrapping or panicking depends on every first part of the list", "anchors": ["prexel/src/ops/unchecked.rs: SumFunction, ProdFunction, AvgFunction", "prexel/src/ops/mod.rs: MaxFunction, MinFunction"]}
{"id": "C12", "title": "Tokenizing never panics on ASCII input", "statement": "Tokenizer::tokenize returns Ok or Err, and does not panic, for every ASCII string, every context, number type and list of shipped splitting rules. On any string it panics only if a prefix operator, not the last word, directly follows a word that ends no operand and does not begin with an ASCII character (refuted without this condition: \u221a - 2 panics).", "quantifier": "every string, every context, every number parser, every list of shipped rules", "why_tests_cant": "the panic needs a specific pair of adjacent raw tokens", "anchors": ["prexel/src/tokenizer.rs: tokenize, is_unary"]}
{"id": "C13", "title": "Token classification priority", "statement": "The tokens of a string are exactly what its words stand for: tokenize succeeds with ts if and only if the string is not blank and the words of the string stand for ts in order, one token per word (in a complex context a number and a following i are one), by the first rule that applies: number, variable, constant, function, operator, comma, grouping symbol, else Unknown. It fails only with Empty (blank string), InvalidExpression (an operator at an end of the string) or, in complex contexts, InvalidInput.", "quantifier": "every string, context and number parser", "why_tests_cant": "any context may hold any names", "anchors": ["prexel/src/tokenizer.rs: tokenize"]}
{"id": "C14", "title": "Unary or binary: the tokenizer's decision", "statement": "A postfix operator is read as unary exactly after a number, variable, constant or closing symbol. An operator that is both prefix and binary, like -, is read as binary after these and after a word starting with a unary-only operator, and as a sign at the start, after an opening symbol or comma, and after another operator that does not start with a unary-only operator character and is not a single non-punctuation character. (That it is a sign after every operator is refuted: with != registered, 2 != -3 is rejected.)", "quantifier": "every sequence of raw tokens and every context", "why_tests_cant": "context-dependent decision over arbitrary neighbours", "anchors": ["prexel/src/tokenizer.rs: is_unary, tokenize"]}
{"id": "C15", "title": "Tokenizing the spaced rendering of an expression gives its tokens back", "statement": "A text whose words spell the tokens of a well-formed expression tokenizes to exactly these tokens, with every splitter; with the default one in particular any text with white space between every two words. Words spell tokens if the context's names have the shape of identifiers or operator runs and no name is hidden by another kind; and no operators clash (two postfix operators in a row; a sign directly after an operator that starts with a unary-only operator character or is a single non-punctuation character). (Refuted without white space: 2*-3, 3!+2 and max(1,-2) fail; and for clashes: 3 ! ! is rejected although (3!)! is not.)", "quantifier": "every grammatical token sequence over any context satisfying the naming conditions", "why_tests_cant": "infinite set of expressions", "anchors": ["prexel/src/tokenizer.rs: tokenize", "prexel/src/utils/splitter.rs: DefaultSplitter"]}
{"id": "C16", "title": "eval computes the value of the expression", "statement": "Evaluator::eval on a text of an expression, with any splitter, returns the value or error obtained by evaluating the expression tree. In the default checked context of an integer type, an arithmetic expression text evaluates to its value over the unbounded integers if all parts fit in the type, and otherwise to Overflow or DivisionByZero. No ASCII string that mentions neither ! nor avg makes evaluation panic in a default checked context.", "quantifier": "every expression tree, text, context satisfying the naming conditions, and number type; every ASCII string", "why_tests_cant": "end-to-end statement over infinitely many strings", "anchors": ["prexel/src/evaluator.rs: Evaluator::eval", "prexel/src/tokenizer.rs: tokenize", "prexel/src/utils/splitter.rs: split_into_tokens"]}
{"id": "C17", "title": "Whitespace insensitivity", "statement": "White space between two words may be replaced by any other white space, and white space at the ends added or removed, without changing the result of tokenize or eval; two strings with the same words have the same result. (That white space can be removed altogether is refuted: 2*-3 fails where 2* -3 succeeds.)", "quantifier": "every string, every amount and kind of Unicode whitespace", "why_tests_cant": "infinitely many spellings per expression", "anchors": ["prexel/src/utils/splitter.rs: SkipWhitespace, SplitOperator", "prexel/src/tokenizer.rs: tokenize"]}
{"id": "C18", "title": "Function, constant and operator names are case-insensitive (ASCII)", "statement": "In a DefaultContext, looking up a function, constant, unary or binary operator under a name returns the same entry as looking it up under any name that differs only in ASCII case; eval gives the same result when such names are respelt.", "quantifier": "every registration history, every name and respelling", "why_tests_cant": "2^n spellings per name, unbounded histories", "anchors": ["prexel/src/context.rs: DefaultContext::get_function, get_constant", "prexel/src/utils/ignore_case_string.rs: IgnoreCaseString"]}
{"id": "C19", "title": "Variables are case-sensitive and never clash with constants", "statement": "After any sequence of set_variable and add_constant calls, no variable name equals a constant name ignoring case; a set_variable or add_constant that would break this returns Err and changes nothing; variable lookup is exact.", "quantifier": "every sequence of calls (any length, any names and values)", "why_tests_cant": "an invariant over all histories", "anchors": ["prexel/src/context.rs: DefaultContext::set_variable, add_constant, get_variable"]}
{"id": "C20", "title": "Variables behave as a map", "statement": "set_variable(x, v) followed by get_variable(x) yields v, leaves every other variable, constant, function and operator unchanged, and returns the previous value; any history of calls agrees with a plain finite map.", "quantifier": "every history of calls", "why_tests_cant": "unbounded histories", "anchors": ["prexel/src/context.rs: DefaultContext::set_variable, get_variable"]}
{"id": "C21", "title": "IgnoreCaseString: a consistent order and equality", "statement": "Equality ignoring case is an equivalence, the comparison is a total preorder whose Equal is that equality, and it is antisymmetric and transitive.", "quantifier": "every triple of Unicode strings", "why_tests_cant": "triples of unbounded strings", "anchors": ["prexel/src/utils/ignore_case_str.rs: eq_ignore_case, partial_cmp_by", "prexel/src/utils/ignore_case_string.rs: Ord, PartialEq"]}
{"id": "C22", "title": "IgnoreCaseString: equal keys hash alike", "statement": "Two ASCII strings that are equal ignoring case feed the same bytes to the hasher, and conversely. (For non-ASCII strings the contract k1 == k2 => hash(k1) == hash(k2) is refuted: capital and small pi are equal but hash differently, so a constant added under one cannot be found under the other.)", "quantifier": "every pair of strings", "why_tests_cant": "the violating pairs are outside the tested alphabet", "anchors": ["prexel/src/utils/ignore_case_string.rs: Hash, Eq"]}
{"id": "C23", "title": "Registering functions and operators", "statement": "add_function / add_unary_function / add_binary_function (and the _as forms) fail with Err and change nothing if the name is taken; otherwise the entry is found afterwards under its name and all its aliases, all other entries are unchanged. (That it never panics and is atomic is refuted: a taken alias panics after earlier aliases were inserted.) They succeed exactly if the name is legal (asked only in debug builds) and free and every alias is free and differs from the aliases before it but for case; with a name that is taken, or in debug builds illegal, the result is Err; with an acceptable name and an alias that is not free they panic (aliases being ASCII texts).", "quantifier": "every context reached by any history, every function with any aliases", "why_tests_cant": "unbounded histories and alias lists", "anchors": ["prexel/src/context.rs: add_function_as, add_unary_function_as, add_binary_function_as"]}
{"id": "C24", "title": "Grouping symbols", "statement": "get_group_symbol, get_group_open_for, get_group_close_for, is_group_open and is_group_close agree with each other on every char. (That only the pairs enabled with with_grouping are recognised is refuted: all three kinds always are.)", "quantifier": "every char, every Config", "why_tests_cant": "all Unicode scalar values, all configurations", "anchors": ["prexel/src/context.rs: Config, Grouping"]}
{"id": "C25", "title": "Checked integer arithmetic is exact or an error", "statement": "In a checked context over a signed or unsigned machine integer, +, -, *, /, mod and unary - return the mathematical result (division truncating, remainder with the sign of the dividend) when it is representable; otherwise Overflow, and DivisionByZero exactly for a zero divisor; they never wrap and never panic. (mod reports Overflow exactly when the quotient overflows: the least value mod -1.) So an arithmetic expression evaluates to its value over the unbounded integers if all its parts fit the type, and to Overflow or DivisionByZero otherwise.", "quantifier": "every pair of values of every width", "why_tests_cant": "2^128 pairs already at 64 bits", "anchors": ["prexel/src/ops/checked.rs: AddOperator, SubOperator, MulOperator, DivOperator, ModOperator, UnaryMinus", "prexel/src/num.rs"]}
{"id": "C26", "title": "Unchecked integer arithmetic", "statement": "In an unchecked context +, -, * and unary - return the exact result when it is representable; when it is not they panic in a debug build and return the result modulo 2^width in a release build; hence in a release build a whole expression of these operators is its unbounded value modulo 2^width. / and mod by zero return DivisionByZero; dividing the least value by -1 panics in every build.", "quantifier": "every pair of values, both build profiles", "why_tests_cant": "2^128 pairs", "anchors": ["prexel/src/ops/unchecked.rs"]}
{"id": "C27", "title": "Aggregates: sum, product, avg, max, min, abs", "statement": "On integers, checked sum and product return the exact total if all prefixes are representable, else Overflow; avg is the truncated mean, Overflow if a prefix of the sum is not representable, and (refuting that it never panics) a panic if the number of arguments is not a value of the type; of no arguments all three report InvalidArgumentCount; max and min return the greatest and least argument for two or more arguments and InvalidArgumentCount otherwise; abs is exact or Overflow.", "quantifier": "every argument list of any length", "why_tests_cant": "unbounded argument lists", "anchors": ["prexel/src/ops/checked.rs: SumFunction, ProdFunction, AvgFunction, AbsFunction", "prexel/src/ops/mod.rs: MaxFunction, MinFunction"]}
{"id": "C28", "title": "Checked contexts never panic", "statement": "In a checked context over any number type no operator and no function panics except ! and avg, so evaluating any token sequence that uses neither never panics. (The exceptions are real: 21! over i64 panics in a debug build and wraps in a release build; avg of 128 numbers over i8 panics.)", "quantifier": "every built-in integer function, every argument", "why_tests_cant": "the inputs that panic are isolated", "anchors": ["prexel/src/ops/mod.rs: Factorial", "prexel/src/ops/checked.rs: AvgFunction"]}
{"id": "C29", "title": "Factorial", "statement": "n! over a machine integer terminates for every n, is the exact factorial whenever it is representable and NegativeValue for negative n; if not representable it panics in debug builds and wraps in release builds. (Over f64 it does not terminate from 2^54 on: refuted.)", "quantifier": "every integer of every width", "why_tests_cant": "unbounded range of n and widths", "anchors": ["prexel/src/ops/mod.rs: Factorial, UnaryFunction::call"]}
{"id": "C30", "title": "Integer power", "statement": "a ^ b on integers is the platform's double-precision power of the two rounded arguments, truncated: exact when the arguments and result are at most 2^53 in absolute value and the platform's power is exact there; an odd power above 2^53 is never returned exactly (refuted: 3^34).", "quantifier": "every pair of integers", "why_tests_cant": "the failing pairs are beyond the range of usual tests", "anchors": ["prexel/src/ops/mod.rs: PowOperator"]}
{"id": "C31", "title": "Binary (bitwise) operators", "statement": "In a binary context, in every expression and text: & | ^ ~ act on the two's complement bits of 128-bit integers, comparisons return 1 or 0 as the integers compare, shifts by 0..127 shift (left: modulo 2^128, right: rounding down), each operator under each of its names in any case of letters; results fit 128 bits. Precedence from tightest: | ^ & then == != then comparisons then shifts, all left-associative. A shift amount out of range panics in debug builds and is reduced modulo 128 in release builds; nothing else panics and no expression without shifts fails. (Refuted: that the precedence is the usual one, 1 | 2 & 4 is 0; that ~ ~5 is accepted; negative numbers cannot be written.)", "quantifier": "every pair of 128-bit values; every expression tree, text and token list over the operators; both builds", "why_tests_cant": "2^256 pairs", "anchors": ["prexel/src/binary/mod.rs: BinaryContext, operators"]}
{"id": "C32", "title": "Binary number text", "statement": "A Binary parses exactly from b and binary digits, or decimal digits, with an optional sign after the b or at the start, of a value in the 128-bit range. It prints as the binary digits of its two's complement without leading zeros. b and the printed digits parse back, and tokenize as one number, for every non-negative number and are rejected for every negative one; without the prefix only 0 and 1 parse back.", "quantifier": "every 128-bit value, every string", "why_tests_cant": "2^128 values", "anchors": ["prexel/src/binary/mod.rs: FromStr, Display"]}
{"id": "C33", "title": "Decimal powers", "statement": "For Decimal (with rust_decimal's arithmetic as documented): x^0 is 1, x^1 is x, and an integer z to an integer power n with 2 <= n < 2^63 is exact if |z| to the next power of two above n is below 2^96, and Overflow otherwise; a power of any base is exact if its powers that far are representable, also for negative exponents by 1/x. A fractional power of a negative number is Overflow, of 1 is 1; otherwise x^e is exp(e * ln x), and exp(e) if x is the constant E, errors included. (Refuted: exact whenever representable: 1000000000^2 overflows; never panics: exponents outside of -2^63 < n < 2^63 panic, and so does 0^-1; 0^0.5 is 1.)", "quantifier": "every base and exponent, every configuration, every decimal library with the documented arithmetic", "why_tests_cant": "unboundedly many bases and exponents", "anchors": ["prexel/src/decimal/mod.rs: ops, DefaultContext::with_config_decimal", "prexel/src/decimal/decimal_ext.rs: DecimalExt"]}
{"id": "C34", "title": "Bounded command history", "statement": "The REPL's CircularArray of capacity c > 0: whatever calls are made, it never holds more than c items, a push never panics and appends the item, dropping the oldest if it is full, so after any pushes it holds the last min(c, number pushed) items in order; pop takes the newest, remove and get the one at an index, returning nothing if there is none. (Refuted for capacity 0: the first push panics.)", "quantifier": "every sequence of calls of any length, every capacity", "why_tests_cant": "unbounded push sequences", "anchors": ["eval/src/collections/carray.rs: CircularArray"]}
{"id": "C35", "title": "REPL line editing and history navigation are safe", "statement": "For every sequence of key events: if the callback does not panic and the history size is not 0, the prompt does not crash; the history holds the last lines that were entered, without blank lines and immediate repetitions; the position in it is valid; the terminal shows the line being edited; the callback is called with exactly the lines typed (or fetched); Up k times fetches the k-th older line and stops at the oldest, Down k times the k-th newer one, past the newest the empty line. (Refuted for history size 0: the first non-blank line crashes.)", "quantifier": "every sequence of key events and every evaluation callback", "why_tests_cant": "unbounded event sequences", "anchors": ["eval/src/repl/repl.rs: Repl::run"]}
{"id": "C36", "title": "REPL assignment and $result", "statement": "A line name = number sets that variable and prints nothing, if the name is assignable; any other line with = prints an error and changes nothing; exit ends the loop, nothing else does; any other line is evaluated with the session's variables, its value printed and put in $result, or an error printed and nothing changed. So in every session every variable has the last value written to it, $result the last result, and only variables change. This holds for the program as a whole, for every sequence of keys. No ASCII line without ! and avg panics in the integer REPL. (Refuted: lines with the comparison operators == >= <= != are taken for assignments, and the right side of an assignment cannot be an expression.)", "quantifier": "every line, every session of lines of any length, every sequence of keys, both builds", "why_tests_cant": "unbounded histories", "anchors": ["eval/src/repl/mod.rs: eval_loop"]}
{"id": "C37", "title": "Server responses carry a result or an error, never both, and do not depend on the order of the variables", "statement": "The evaluation endpoint answers every body: with status 400 and an error if it is no request (and evaluates nothing), otherwise with status 200 and exactly one of result and error, as JSON, or as bare text if only_result=true and the evaluation succeeded. What is evaluated is the expression, with the type asked for (decimal by default) and exactly the variables given, each worth the number its text stands for; if one name is not assignable or one text is no number, the answer is an error and nothing is evaluated. For any two orders of the variables the answers are equal, or both are errors. (Refuted: that the error message does not depend on the order.)", "quantifier": "every request, every permutation of its variables", "why_tests_cant": "n! orders, chosen at random by the hash map at run time", "anchors": ["prexel-server/src/services/evaluator.rs: eval_expression", "prexel-server/src/models/mod.rs", "prexel-server/src/endpoints/mod.rs: eval"]}
{"id": "C38", "title": "Rate-limiter identity", "statement": "Two clients get the same rate-limiter identifier exactly when they are known by the same bytes: the connection's address, else the peer's address, else the X-Ratelimit-Id cookie unless it is marked not HttpOnly; a client known by none of these gets none. Identifiers (base64 with the trailing '=' trimmed) contain only letters, digits, + and /. Generated identifiers have 22 characters and differ for different UUIDs.", "quantifier": "every pair of requests, every pair of byte strings", "why_tests_cant": "injectivity over unbounded strings", "anchors": ["prexel-server/src/middlewares/rate_limiter.rs: get_rate_limit_identifier, generate_rate_limit_id"]}
{"id": "C39", "title": "String helpers", "statement": "eq_char is true exactly of the one-char string; single_char returns the char exactly of one-char strings; to_capital_case and to_sentence_case change only letter case and are idempotent on ASCII.", "quantifier": "every string", "why_tests_cant": "unbounded strings", "anchors": ["prexel/src/utils/extensions/str_ext.rs"]}
{"id": "C40", "title": "Name validation", "statement": "In debug builds a registration with an empty or blank name, or one containing whitespace or control characters, is refused and changes nothing; in release builds such names are accepted.", "quantifier": "every name, every registration function, both build profiles", "why_tests_cant": "all Unicode strings", "anchors": ["prexel/src/context.rs: validate::check_token_name"]}
{"id": "C41", "title": "Conversion to postfix loses and invents nothing", "statement": "For every token sequence on which infix_to_rpn succeeds, the operands of its output are those of the input in the same order, and its operators and function names are those of the input plus one * for each implied multiplication; every operator used is registered.", "quantifier": "all token sequences, grammatical or not; all contexts and configurations; debug and release builds", "why_tests_cant": "Token sequences are unbounded and most are not grammatical; a lost or duplicated token would only show on particular nestings.", "anchors": ["prexel/src/evaluator.rs: shunting_yard::infix_to_rpn"]}
{"id": "C42", "title": "Evaluation depends only on the names an expression uses", "statement": "The result of eval_tokens does not depend on entries of the context that the expression does not name: setting another variable never changes it, and registering a function or operator never changes the value of an expression whose names are all defined.", "quantifier": "all token sequences, contexts and histories of calls; debug and release builds", "why_tests_cant": "It quantifies over all pairs of contexts that agree on the names used; a test compares two.", "anchors": ["prexel/src/evaluator.rs: eval_tokens", "prexel/src/context.rs: DefaultContext"]}
{"id": "C43", "title": "Constructing default contexts", "statement": "The checked and unchecked default contexts can be built without panicking for every integer type of at least 3 bits and for f64, in debug and release, with or without the docs feature; they contain exactly the constants PI and E, in any ASCII case (3 and 2 over integers), and no variables.", "quantifier": "every integer type, libm, random source, configuration, build profile and queried name", "why_tests_cant": "The constructors unwrap about sixty registrations that depend on number conversions and name hashing of the platform; tests build a few contexts.", "anchors": ["prexel/src/context/default_context.rs: with_config_checked, with_config_unchecked"]}
{"id": "C44", "title": "Rounding functions", "statement": "floor, ceil, round and truncation of an integer return it if it is at most 2^53 in absolute value. (Beyond that refuted: floor(2^53+1) = 2^53; over f64 floor may exceed its argument, floor(3 - 2^-40) = 3; the sign of 0 is 1; and the names are trunc/signum with the docs feature, truncate/sign without.)", "quantifier": "every integer of every width; every number type for the names", "why_tests_cant": "The functions go through f64 and an approximation step; 2^54 arguments are not testable.", "anchors": ["prexel/src/ops/mod.rs: forward_func_impl!", "prexel/src/utils/mod.rs approx"]}
{"id": "C45", "title": "Argument counts", "statement": "For every function of the checked context and every number type, InvalidArgumentCount is returned exactly when the number of arguments is not accepted: sum, product, avg take at least 1; max, min at least 2; log, atan 1 or 2; random 0 to 2; all others exactly 1.", "quantifier": "every function, argument list of any length and number type", "why_tests_cant": "Argument lists are unbounded and the number type is generic.", "anchors": ["prexel/src/ops/mod.rs", "prexel/src/ops/checked.rs"]}
{"id": "C46", "title": "Finite results", "statement": "Over f64, the trigonometric, inverse trigonometric, inverse hyperbolic functions and log never return NaN or an infinity, whatever the platform's mathematical library returns. (Not so the others: sqrt(-1) is NaN and + may return infinity: refuted for all functions.)", "quantifier": "every double argument and every libm behaviour", "why_tests_cant": "2^64 arguments and unknown platform functions.", "anchors": ["prexel/src/ops/mod.rs: impl_trig!, impl_arc_trig!, LogFunction, ATanFunction"]}
{"id": "C47", "title": "Determinism", "statement": "Evaluating a token sequence in a default context that does not call random has one result, whatever the state of the random source, and leaves that state unchanged.", "quantifier": "every token sequence, number type, configuration, checked and unchecked contexts", "why_tests_cant": "Independence of hidden state quantifies over all states.", "anchors": ["prexel/src/evaluator.rs eval_tokens", "prexel/src/ops/mod.rs RandFunction"]}
{"id": "C48", "title": "Integer literals", "statement": "An integer type reads exactly the numerals (optional sign, a minus only if signed, at least one decimal digit) whose value it can represent, and to that value. A number word of an expression therefore is a number exactly if it has no decimal point and its value fits the type; otherwise it is not recognised.", "quantifier": "every string, every integer width, signed or not", "why_tests_cant": "Strings and widths are unbounded; overflow depends on every digit.", "anchors": ["prexel/src/tokenizer.rs: tokenize (N::from_str)", "core::num::from_str_radix (modelled)"]}
{"id": "C49", "title": "Decimal arithmetic is exact", "statement": "In the Decimal context + - * / give the exact result whenever it is a decimal number of 96 bits with up to 28 places, Overflow if it is out of range, otherwise a number within one unit of the last place, and never panic; mod by a non-zero number gives the exact remainder; an expression all of whose parts have representable values evaluates to exactly its value. (Refuted: division by zero is DivisionByZero; it is Overflow.)", "quantifier": "all numbers, every expression of any size, every configuration", "why_tests_cant": "infinitely many numbers and expressions", "anchors": ["prexel/src/decimal/mod.rs: ops, DefaultContext::with_config_decimal", "prexel/src/decimal/decimal_ext.rs: DecimalExt"]}
{"id": "C50", "title": "Decimal factorial", "statement": "In the Decimal context n! is exact for n = 0, 1 and 3..27, and Overflow from 28 on, where it is out of range, and for negative numbers. (Refuted for n = 2: 2! is 1.)", "quantifier": "every natural number, every negative number", "why_tests_cant": "ranges over all numbers", "anchors": ["prexel/src/decimal/mod.rs: ops, DefaultContext::with_config_decimal", "prexel/src/decimal/decimal_ext.rs: DecimalExt"]}
{"id": "C51", "title": "Decimal aggregates", "statement": "In the Decimal context sum, product and avg of at least one argument are exact if the partial results are representable; max and min return an argument that is an upper/lower bound of all; too few arguments are InvalidArgumentCount. (Refuted: out-of-range sums are Overflow; they panic.)", "quantifier": "every argument list of any length", "why_tests_cant": "argument lists of any length", "anchors": ["prexel/src/decimal/mod.rs: ops, DefaultContext::with_config_decimal", "prexel/src/decimal/decimal_ext.rs: DecimalExt"]}
{"id": "C52", "title": "Decimal functions", "statement": "In the Decimal context ceil, floor, truncate and round are exact; ln, log, sqrt, acosh, atanh, csch and coth outside of their domains are Overflow; ln(1), exp(0), log(1), log(10), sin(0), cos(0), tan(0), atan(0), sinh(0), cosh(0), tanh(0), sech(0), cbrt(1) are exact; log(x, b) is ln x / ln b (b = 10 if omitted); sinh, cosh, tanh are the usual quotients of sums of exp x and exp(-x), csch, sech, coth their reciprocals; acsc and asec of 0 < |x| <= 0.9 are Overflow and exact at 1 and -1; asin and acos are Overflow if the argument converted to radians exceeds 1 in absolute value; a non-zero result y of sqrt(x) satisfies |y*y - x| <= 4|y| units of the last place there is room for. (Refuted: csc, sec, cot, acot are reciprocals: they are the same as sin, cos, tan, atan; atan(y, 0) is a quarter turn: it is a full turn; and for an implementation of decimals that rounds correctly: cbrt(0) is 0: it is Overflow, cbrt(8) is not 2, exp(1000) is negative, asin and acos take their argument for an angle in degrees.)", "quantifier": "all numbers, every configuration, every decimal library with the documented arithmetic", "why_tests_cant": "infinitely many arguments", "anchors": ["prexel/src/decimal/mod.rs: ops, DefaultContext::with_config_decimal", "prexel/src/decimal/decimal_ext.rs: DecimalExt"]}
{"id": "C53", "title": "Decimal expressions that never panic", "statement": "Evaluating tokens in the Decimal context never panics if they do not contain ^, !, sum, avg, product, sqrt, to_degrees, asin, acos, atan, acsc, asec, nor a hyperbolic function or its inverse; in particular sin, cos, tan, csc, sec, cot, acot, exp, ln, log, cbrt, to_radians, max, min, random, the rounding functions and + - * / mod do not panic for any numbers. (Refuted for the others: to_degrees, asinh and acosh of large numbers, acsc(0), asec(0), atanh(1), acoth(1) panic; see C33, C51.)", "quantifier": "every token sequence of any length, all numbers, both builds", "why_tests_cant": "infinitely many numbers and expressions", "anchors": ["prexel/src/decimal/mod.rs: ops, DefaultContext::with_config_decimal", "prexel/src/decimal/decimal_ext.rs: DecimalExt"]}
{"id": "C54", "title": "Operators have the usual precedences", "statement": "In every shipped arithmetic context (checked or unchecked over any number type, Decimal, Complex), in `a s1 b s2 c` the operators ^ (right to left), then * / mod, then + - (left to right) group as in mathematics, in any letter case; there are no other binary operators, and + - ! are the only unary operators.", "quantifier": "all numbers, operators, operands (numbers, names, groups, calls), contexts, configurations", "why_tests_cant": "infinitely many operands and number types", "anchors": ["prexel/src/ops/checked.rs", "prexel/src/ops/unchecked.rs", "prexel/src/ops/mod.rs", "prexel/src/decimal/mod.rs", "prexel/src/complex/mod.rs", "prexel/src/evaluator.rs"]}
{"id": "C55", "title": "Exact arithmetic over f64", "statement": "In an f64 context (checked or unchecked, any configuration) + - * / mod and signs give the mathematically exact result whenever it is a double (mod: always, with the sign of the dividend); so do all expressions whose parts have values that are doubles, in particular integer arithmetic up to 2^53; dividing by 0 is DivisionByZero. (Refuted: that the checked f64 context reports overflow: it returns infinity.)", "quantifier": "all finite doubles, all expressions of any size", "why_tests_cant": "infinitely many expressions, 2^128 pairs of doubles", "anchors": ["prexel/src/numeric_traits/mod.rs: CheckedAdd.. for f64", "prexel/src/ops/mod.rs", "prexel/src/ops/checked.rs", "prexel/src/ops/unchecked.rs", "prexel/src/context.rs: DefaultContext<f64>"]}
{"id": "C56", "title": "Functions over f64", "statement": "Over f64, max and min of two or more finite numbers are the greatest and least of them; sum, product and avg are exact while partial results are doubles; n! is exact while it is at most 2^53; sqrt of a perfect square up to 2^53 is its root; abs (which only checked contexts have) is the absolute value. (Refuted: with a NaN among the arguments max and min depend on the order.)", "quantifier": "all finite doubles, argument lists of any length", "why_tests_cant": "argument lists of any length", "anchors": ["prexel/src/numeric_traits/mod.rs: CheckedAdd.. for f64", "prexel/src/ops/mod.rs", "prexel/src/ops/checked.rs", "prexel/src/ops/unchecked.rs", "prexel/src/context.rs: DefaultContext<f64>"]}
{"id": "C57", "title": "Complex arithmetic", "statement": "A complex context can be built with any configuration and turns complex numbers on; + - * / mod and signs are those of complex numbers (i*i = -1) when no rounding is needed, for all expressions, in particular for whole parts up to 2^52 (sums) and 2^26 (products); dividing by 0 + 0i, and only that, is DivisionByZero. (Refuted: that a quotient that is representable is found: 2^600/2^600 and 2^-600/2^-600 are NaN.)", "quantifier": "all numbers and expressions", "why_tests_cant": "infinitely many numbers and expressions", "anchors": ["prexel/src/complex/mod.rs: new_complex, with_config_complex, ops"]}
{"id": "C58", "title": "Complex functions", "statement": "The functions of a complex context are the 32 listed ones, in any letter case; a wrong number of arguments is InvalidArgumentCount and a right one is not; sqrt, ln, exp, sin, cos, tan, their inverses and the hyperbolic ones are num_complex's, ^ is its powc, log(x) its logarithm to the base 10; csc, sec, cot and the hyperbolic ones are the reciprocals of the functions they should be; the inverses acsc, asec, acot and the hyperbolic ones are the reciprocals of asin, acos, atan...; nothing panics; random draws once for each part, random(max), random(min, max) scale both parts and refuse negative and non-real bounds. (Refuted: acsc is an inverse of csc; log(x, b) is the logarithm to base b: a real base is refused and of another one only the real part counts; random(min, max) wants min <= max: random(2, 1) is accepted and random(-2, 1) refused.) sum and product are what the context's own + and * make of the arguments from the left, and avg is that sum divided by their number.", "quantifier": "all token sequences, all arguments, all libraries of complex functions", "why_tests_cant": "infinitely many arguments and expressions", "anchors": ["prexel/src/complex/mod.rs: new_complex, with_config_complex, ops"]}
{"id": "C59", "title": "A result depends only on the names that occur in the expression", "statement": "Two contexts with the same configuration and operators that agree on the variables, constants and functions named by the words of an expression evaluate it alike: the same result, error or panic, with the same effects. In particular setting a variable, adding a constant or registering a function never changes the result of an expression that does not contain that name (in any case, for constants and functions).", "quantifier": "every expression text, every pair of contexts, every name", "why_tests_cant": "quantifies over all pairs of contexts and all texts", "anchors": ["prexel/src/evaluator.rs: eval", "prexel/src/tokenizer.rs", "prexel/src/context.rs: set_variable, add_constant, add_function"]}
{"id": "C60", "title": "The listing endpoints list what evaluation knows", "statement": "For decimal, integer, complex and binary, /functions, /operators and /constants list exactly the names the evaluation of that type knows: every listed name is usable, every usable name is listed up to case; the default type is decimal. (Refuted for float: cbrt is listed and not known, abs is known and not listed.)", "quantifier": "every number type, every name", "why_tests_cant": "'no other name is usable' quantifies over all strings", "anchors": ["prexel-server/src/endpoints/mod.rs", "prexel-server/src/services/info.rs"]}
{"id": "C61", "title": "The command line evaluates, and lists, as the server does, except for floats", "statement": "The five type names are accepted on the command line, in lower case, and no other. For every type, what `list` shows is exactly what `eval` knows. For every type but float, `eval` gives the result or error the server gives to the same expression without variables. (Refuted for float: the server knows abs, the command line does not.) Listed names are padded to one width with at least four spaces.", "quantifier": "every expression, every type string, every list of names", "why_tests_cant": "equality of two programs on all texts", "anchors": ["eval/src/main.rs: EvalType::from_str", "eval/src/eval_expr.rs", "eval/src/list.rs: list, pad_right", "prexel-server/src/services/evaluator.rs"]}
{"id": "C62", "title": "Requests that cannot panic", "statement": "A request with an ASCII expression is always answered if its type is complex; if it is integer or float and mentions neither ! nor avg; if it is binary and, in debug builds, mentions no shift; if it is decimal and mentions none of !, ^ and the functions C53 lists as able to panic. (Refuted for all requests: a non-ASCII expression, a too large factorial or a shift by 200 panic.)", "quantifier": "every request", "why_tests_cant": "all expressions, all variables", "anchors": ["prexel-server/src/endpoints/mod.rs: eval", "prexel-server/src/services/evaluator.rs", "prexel/src/evaluator.rs", "prexel/src/tokenizer.rs"]}
{"id": "C63", "title": "Integer results can be fed back", "statement": "A machine integer written as a result is written reads as the same number, so the result of one integer request can be the value of a variable of the next. (For binary numbers see C32.)", "quantifier": "every integer type and every number in its range", "why_tests_cant": "2^128 values", "anchors": ["prexel-server/src/services/evaluator.rs: eval_integer_expression", "eval/src/eval_expr.rs: eval_integer"]}
{"id": "C64", "title": "Number types made with the field macros compute as the field does", "statement": "For a struct made a number type with impl_checked_num_traits_with_field! (or the _and_from_str form), every text without ! has in a checked context the result it has for the type of its field, with the same variables; with impl_unchecked_num_traits_with_field! so has every text without ! and - in an unchecked context. (Refuted for the binary -: in an unchecked context x - y is x + y; refuted for !: in debug builds n! panics for every n from 2 on, since the loop that should count down counts up; 0! and 1! are 1 and n! of a negative n is the error NegativeValue.)", "quantifier": "every text, splitter, parser, context configuration, number type of the field, list of variables", "why_tests_cant": "equality of two contexts on all texts; the repository's tests do not subtract", "anchors": ["prexel/src/numeric_traits/mod.rs: impl_unchecked_num_traits_with_field, impl_checked_num_traits_with_field", "prexel/src/ops/mod.rs: Factorial"]}
{"id": "C65", "title": "The functions of one argument over f64", "statement": "Over f64, in checked and unchecked contexts: sin, cos, tan take degrees; csc, sec, cot are their reciprocals (infinite: error NAN); asin, acos, asinh, acosh, atanh give degrees; acsc, asec, acsch, asech, acoth of x are those of 1/x; csch, sech, coth are the reciprocals of sinh, cosh, tanh; sqrt, ln, exp, to_radians, to_degrees are the platform's. The trigonometric functions and the inverse functions replace a result within 1e-10 of an integer by that integer (and report NAN when it is not finite); the others replace an argument within 1e-10 of an integer by that integer. floor, ceil, round, trunc are the mathematical ones for every other number, and the sign is 1 or -1. (So, refuting the obvious reading, sqrt(2^-40) is 0.)", "quantifier": "every double argument, every platform mathematical library, every configuration", "why_tests_cant": "all doubles, and all implementations of the platform functions", "anchors": ["prexel/src/ops/mod.rs: forward_func_impl, forward_func_inv_impl, impl_trig, impl_trig_rec, impl_arc_trig, impl_arc_trig_rec, approx"]}
{"id": "C66", "title": "The functions of one argument over machine integers", "statement": "Over a machine integer type, the 28 functions of one argument that every default context has are applied to the double made of the argument, as for f64, and give the integer part of what f64 gives, or Overflow if that does not fit in the type or is not a finite number; errors are those of f64.", "quantifier": "every integer type and argument, every platform mathematical library, checked and unchecked contexts", "why_tests_cant": "all integers, all implementations of the platform functions", "anchors": ["prexel/src/ops/mod.rs: forward_func_impl, impl_trig, impl_arc_trig, try_to_float"]}
{"id": "C67", "title": "Arithmetic over f64 is IEEE 754 arithmetic, correctly rounded", "statement": "Over f64, in checked and unchecked contexts, + - * / on any doubles (infinities and NaN included) give the double nearest to the exact result, ties to the even mantissa, infinity from 2^1024 - 2^970 on, with the signs of IEEE 754; mod is the exact remainder of the truncated division; a zero divisor is DivisionByZero, whatever the dividend. The result is determined by that; its relative error is at most 2^-53 (absolute 2^-1075 below 2^-1022). Expressions do these operations one by one; sum and product go from left to right, avg divides the sum by the number of arguments; sqrt of a positive number is the double nearest to the root of the number (replaced by the integer within 1e-10, if there is one).", "quantifier": "every pair of doubles, every expression of + - * / mod, signs and groups, every list of arguments", "why_tests_cant": "2^128 pairs of doubles; rounding is a statement about the exact rational result", "anchors": ["prexel/src/ops/checked.rs: AddOperator, SubOperator, MulOperator, DivOperator, ModOperator, SumFunction, ProdFunction, AvgFunction", "prexel/src/ops/unchecked.rs", "prexel/src/num/checked.rs: impl for f64", "prexel/src/ops/mod.rs: SqrtFunction"]}
{"id": "C68", "title": "random(min, max) stays between its bounds", "statement": "Let u, 0 <= u < 1, be the number drawn. Over f64, in checked and unchecked contexts, random() is u; random(max) is u * max rounded, from 0 to max, below max if max > 2^-1022; random(min, max) is between min and max, both included, when max - min does not overflow (refuted without that: it is then not a finite number). Over machine integers with bounds up to 2^53, random() is 0, random(max) is from 0 to max - 1 (0 for 0), random(min, max) from min to max. Exactly one number is drawn. A bound that is not finite is NAN, a negative max NegativeValue, max < min InvalidInput; these draw nothing.", "quantifier": "every drawn number, every pair of doubles or of integers up to 2^53 in absolute value, every integer type, configuration and platform library", "why_tests_cant": "min + (max - min) * u is rounded three times: that no rounding ever leaves the interval is a statement about all doubles and all draws", "anchors": ["prexel/src/ops/mod.rs: RandFunction"]}
{"id": "C69", "title": "log and atan, with one and with two arguments", "statement": "Over f64: log(x) is the platform's log10, log(x, b) its logarithm to the base b, atan(x) its arc tangent in degrees, atan(y, x) its atan2 of y and x in degrees, NAN for (0, 0); a result that is not finite is NAN, another number of arguments InvalidArgumentCount; arguments and results are not snapped to integers (so, refuting the pattern of the other inverse functions, acot(x) need not be atan(1/x)). On a platform where log(x, b) = ln x / ln b: base 1, zero and negative numbers are errors, log(b, b) = 1, log(1, b) = 0. Over machine integers: the same of the converted arguments, and the integer part of the result or Overflow.", "quantifier": "every list of arguments, every platform library, configuration, integer type, checked and unchecked contexts", "why_tests_cant": "all doubles and all platform libraries", "anchors": ["prexel/src/ops/mod.rs: LogFunction, AtanFunction"]}
{"id": "C70", "title": "The terminal shows the session", "statement": "In the REPL, as long as each row (prompt and line, prompt and answer) is shorter than the terminal is wide and characters are printable, after any keys the terminal shows the start text, each line entered behind the prompt, under it its result (green) or message (red), if any, also behind a prompt, and in the current row the prompt and exactly the line being edited, with the cursor behind it; after Escape, Ctrl-C or 'exit' the exit text replaces the line being edited. The lines and answers are those of a session (C36). With --no-color no text is coloured and the text is the same. The command eval writes a result to stdout only and an error to stderr only. (Refuted: also for longer lines: erasing does not go back to the previous row; with --no-color only text is sent: rows are still cleared with escape sequences; an error can be told from the exit status: it is always 0; if a line had two answers they would be in the wrong order, stdout being buffered.)", "quantifier": "every sequence of keys, every callback (in particular the evaluation loop over every number type), every terminal width up to 65535, prompt, texts, with and without colours", "why_tests_cant": "unboundedly many key sequences and session histories; the terminal's state depends on all of them", "anchors": ["eval/src/writer.rs: ColorWriter", "eval/src/repl/repl_writer.rs: ReplWriter", "eval/src/repl/repl.rs: Repl::run", "eval/src/repl/mod.rs: eval_loop", "eval/src/main.rs: main"]}
{"id": "C71", "title": "Decimal sine, cosine, tangent", "statement": "In the Decimal context sin(x) and cos(x) of up to a billion degrees are there and within 3*10^-16 of the real sine and cosine of x*pi/180; at multiples k of 90 degrees (|k| <= 111111) they are exactly 0, 1 or -1, and tan is 0 or Overflow. tan(x) is there if |cos x| >= 10^-6, then with an error below 10^-15/cos(x)^2; whenever it is there its value y satisfies |y cos x - sin x| <= 4*10^-16 (1+|y|). to_radians and to_degrees are within 2*10^-16 of x*pi/180, x*180/pi (up to a billion degrees, 100000 radians), and one after the other gives the angle back within 2*10^-14 up to a million degrees. (Refuted, for an implementation of decimals that rounds correctly: sin(30) is exactly 0.5: it is 0.5000000000000000000000000004; large angles: sin of 10^25 full turns is above 0.05.)", "quantifier": "all angles in the stated ranges, every configuration, every decimal library with the documented arithmetic", "why_tests_cant": "the error of a sum of a hundred rounded terms must be bounded for every one of the 10^37 angles", "anchors": ["prexel/src/decimal/decimal_ext.rs: checked_sin, checked_cos, checked_tan, to_radians, to_degrees, approx", "prexel/src/decimal/mod.rs: ops, DefaultContext::with_config_decimal"]}
{"id": "C72", "title": "Decimal logarithms", "statement": "In the Decimal context, for x >= 1/20, ln(x) is there and within 2*10^-16 of the real logarithm, log(x) within 2*10^-16 of ln x / ln 10. log(10^k) is exactly k for k <= 3 and within 10^-25 of k for k <= 28. For x, b >= 1/20 with |ln b| >= 10^-6, log(x, b) is there and its value y satisfies |y ln b - ln x| <= 3*10^-16 (1+|y|). For 0 < x < 1 ln(x) is there, within 2*10^-16 of the sum of the first 999 terms of the power series at 1, so never below -8. (Refuted: ln of small numbers: for 0 < x <= 10^-10 the result is more than 15 above the logarithm.)", "quantifier": "all arguments in the stated ranges, every configuration, every decimal library with the documented arithmetic", "why_tests_cant": "the error of a sum of a thousand rounded terms, each a rounded power, must be bounded for every one of the 10^37 decimals", "anchors": ["prexel/src/decimal/decimal_ext.rs: checked_ln, checked_log, checked_powi, approx", "prexel/src/decimal/mod.rs: ops::LnOperator, LogFunction, DefaultContext::with_config_decimal"]}
{"id": "C73", "title": "Decimal exponential, hyperbolic functions and powers", "statement": "In the Decimal context exp(x) is there for -60 <= x <= 50 and within 2*10^-16 + exp(x)^2/10^23 of the real exponential; sinh(x) and cosh(x) are there for |x| <= 50 and within 2*10^-16 + exp(2|x|)/10^23 of the real ones, tanh(x) within 2*10^-15 + exp(|x|)/10^22. For x >= 1/20 and e not an integer, |e| <= 10^6, |e ln x| <= 49, x^e is there and within 2*10^-16 (1 + |e| X) + 2 X^2/10^23 of the real power X. (Refuted for larger arguments: with decimals rounded half away from zero exp(1000000) and exp(-1000000) are negative and exp(66) is more than 10^28 too small, without any error.)", "quantifier": "all arguments in the stated ranges, every configuration, every decimal library with the documented arithmetic", "why_tests_cant": "convergence and rounding of a continued fraction of a hundred levels must be bounded for every decimal argument", "anchors": ["prexel/src/decimal/decimal_ext.rs: checked_exp, checked_powd, sinh, cosh, tanh", "prexel/src/decimal/mod.rs: ops::PowOperator, DefaultContext::with_config_decimal"]}
{"id": "C74", "title": "Factorials over f64 beyond the exact range", "statement": "Over f64 (checked or unchecked): for a whole number n <= 2^52, n! is within a relative error n*2^-52 of the factorial if n <= 170 and infinity if n >= 171. For 0 < x < 1, x! is the code's gamma function of x+1 rounded; for x > 1 with whole part k and a fraction, it is x(x-1)...(x-k+1), rounded after each multiplication from the left, times the gamma function of the rounded x-k+1. The gamma function is asked only for arguments from 1 to 2, and its coefficients are the doubles nearest to the source's literals. (Exact results up to 2^53: C56; from 2^54 on the loop does not end: C29.)", "quantifier": "all finite doubles, every configuration, checked and unchecked contexts, every platform library", "why_tests_cant": "the rounding of up to 2^52 multiplications must be bounded for every argument", "anchors": ["prexel/src/ops/mod.rs: math_ops::Factorial", "prexel/src/utils/gamma.rs: gamma"]}
{"id": "C75", "title": "Decimal arctangent", "statement": "In a decimal context: atan(x) is within 2e-16 of the real arctangent for every decimal x. atan(y, x) with x not 0 and |y/x| <= 10^28 is within 2e-16 of the angle of the point (x, y) in (-pi, pi] (x = 0: C52). REFUTED for acot: it is the arctangent as well, so for |x| <= 1/2 or |x| >= 2 it is at least 1/2 away from every angle whose cotangent is x.", "quantifier": "every decimal argument, every decimal library whose arithmetic is as documented, every configuration", "why_tests_cant": "the code adds 100 levels of a continued fraction with rounding at each; the bound must hold for every argument", "anchors": ["prexel/src/decimal/decimal_ext.rs: DecimalExt::checked_atan, checked_atan2", "prexel/src/decimal/mod.rs: context functions atan, acot"]}
{"id": "C76", "title": "Decimal cube root", "statement": "In a decimal context, for 0 < x <= 10^14 with real cube root c, cbrt(x) is within (4 + 1/c + 60c)/10^28 of c. REFUTED outside: cbrt(-2) and cbrt(x) for 8.5*10^14 <= x <= 10^27 are Overflow errors though both have a cube root (cbrt(0) and inexactness: C52).", "quantifier": "every decimal argument in the ranges, every decimal library whose arithmetic is as documented, every configuration", "why_tests_cant": "a hundred rounded Newton steps from a fixed start must converge for every argument over 42 orders of magnitude", "anchors": ["prexel/src/decimal/decimal_ext.rs: DecimalExt::checked_cbrt", "prexel/src/decimal/mod.rs: context function cbrt"]}
{"id": "C77", "title": "Decimal square roots and inverse functions", "statement": "In a decimal context: if sqrt(x) returns y for x >= 0, then |y - sqrt x| <= (5 + 160 sqrt x)/10^28. If asin/acos(x) returns y and to_radians(x) = r with |r| <= 1, then y is within 3e-14 (4e-16 when |r| <= 1 - 1e-20) of the arcsine/arccosine of r; acsc/asec(x) for |x| >= 1 within 6e-14 (5e-16 when |x| >= 1 + 1e-19) of the angle with sine/cosine 1/x; asinh(x) within 2e-16 for -9 <= x <= 10^13; acosh(x) within 5e-14 (2e-16 from 1 + 1e-10 on) for 1 <= x <= 10^13; atanh(x) returns a value within 1e-16 for -0.9 <= x < 1. REFUTED: asin(x) is less than half of the angle whose sine is x (the argument is converted from degrees first); asech(x) and acoth(x) are Overflow errors on the whole domains of those functions (0 < x < 1, |x| > 1); acsch(x) is 1/asinh(x), not the inverse of the hyperbolic cosecant.", "quantifier": "every decimal argument in the ranges, every decimal library whose arithmetic and double conversions are as documented, every configuration", "why_tests_cant": "accuracy over ranges of tens of orders of magnitude, through a Newton loop, a continued fraction and a logarithm series with rounding at every step", "anchors": ["prexel/src/decimal/decimal_ext.rs: checked_sqrt, checked_asin, checked_acos, asinh, checked_acosh, checked_atanh", "prexel/src/decimal/mod.rs: context functions sqrt, asin, acos, acsc, asec, asinh, acosh, atanh, acsch, asech, acoth"]}
{"id": "C78", "title": "From the text of a calculation to its exact value", "statement": "For an arithmetic expression written with unsigned decimal numerals, grouping symbols, + - * / mod, signs and implied products, with any white space between its words: if the value of every part is a double then evaluating the text in a default f64 context (checked or unchecked, any configuration it is legal under) gives exactly the double of its exact value; whatever its numbers, it gives what IEEE 754 says of the numerals rounded to nearest and the operations done one by one, each rounded; in the decimal context it gives exactly its exact rational value if the value of every part is representable.", "quantifier": "every expression, every layout of its text, every configuration, every environment, both debug and release builds; every FromStr that reads unsigned numerals correctly rounded (f64) or exactly (Decimal) and does not take operators for numbers (both shown to exist)", "why_tests_cant": "ranges over all texts of all expressions; involves splitter, tokenizer, reading rules and arithmetic together", "anchors": ["prexel/src/evaluator.rs: eval", "prexel/src/tokenizer.rs: get_tokens", "prexel/src/utils/splitter.rs", "prexel/src/context.rs: new_checked, new_unchecked", "prexel/src/decimal/mod.rs: new_decimal"]}
{"id": "C79", "title": "Errors and tokens as the API shows them", "statement": "The message of an error made from a kind alone is the one its table gives (such as \"Cannot divide by zero\"), determines the kind and is never empty; an error made from a kind and an inner error has that kind, shows the inner error's message and gives the inner error back. Errors compare equal exactly when their kinds are equal, so equal errors may show different messages. A token's printed form determines the token (if that is so for the printed form of numbers); every token satisfies exactly one of the eleven sort predicates, and it is the one its printed form begins with.", "quantifier": "every error kind, inner error and display function, every two tokens of any number type", "why_tests_cant": "ranges over all tokens with arbitrary text and all errors", "anchors": ["prexel/src/error.rs: Error, ErrorKind::as_str, kind, into_inner, Display, PartialEq", "prexel/src/token.rs: Token, Display, is_number, is_variable, is_binary_operator"]}
{"id": "C80", "title": "A user-built logic context evaluates its formulas", "statement": "In the contexts the example builds with add_constant and add_binary_function, every text that lexes into a formula evaluates to the formula's value: over bool its truth value, over u8 the bitwise value with true = 1 and false = 0. Formulas are given by a grammar in which or binds tightest, then xor, then and, all to the left; the usual reading (and before or) is not the one used. Both contexts can always be built.", "quantifier": "every formula, every layout of its text, every environment, both debug and release builds", "why_tests_cant": "ranges over all formulas and all their layouts", "anchors": ["prexel/examples/logical_ops.rs: AndOperator, OrOperator, XorOperator, eval_bool, eval_u8", "prexel/src/context.rs: add_constant, add_binary_function", "prexel/src/evaluator.rs: eval"]}
{"id": "C81", "title": "Brackets and variables mean what they say", "statement": "Two ways of writing an expression that differ in brackets only and are each read as the tree they show evaluate alike, as tokens and as text. With brackets around every operand, every tree over registered operators can be evaluated, whatever the precedences. An expression with a variable and the same expression with another expression of the variable's value in its place evaluate alike when both are read as the trees they show, in particular after set_variable. Without that condition this fails: with x = 3, -x - 2 is -5 but -(x) - 2 is -1.", "quantifier": "every context, expression, pair of bracketings, variable, replacing expression, world and build", "why_tests_cant": "ranges over all contexts and all expression trees", "anchors": ["prexel/src/evaluator.rs: eval, eval_tokens, infix_to_rpn", "prexel/src/context.rs: set_variable"]}
{"id": "C82", "title": "Checked and unchecked contexts compute alike", "statement": "A text or a token list evaluates alike in the unchecked context and in the checked context with the same configuration and variables: same value, error or panic and same random draws, unless the checked one reports Overflow, provided no word names abs, floor, ceil, round, trunc or signum (or truncate and sign, when built without the docs feature). For doubles there is no such exception: they always agree. A text containing one of these six names, unless it is the name of a variable or a numeral, never yields a value in the unchecked context. The unchecked sum and product of integers give the exact result wrapped to the type in release builds, and in debug builds the exact result or a panic when some partial result does not fit. The unchecked functions report InvalidArgumentCount exactly for the argument counts they do not accept.", "quantifier": "every integer width and signedness and doubles, every configuration, variable assignment, text, parser, splitter, token list, world and build", "why_tests_cant": "relates two contexts on every text and every state of the random source", "anchors": ["prexel/src/context.rs: new_checked, new_unchecked, with_config_checked, with_config_unchecked", "prexel/src/ops/checked.rs", "prexel/src/ops/unchecked.rs", "prexel/src/evaluator.rs: eval, eval_tokens"]}
{"id": "C83", "title": "Errors and randomness of the decimal context", "statement": "In the decimal context every operator and every function but random leaves the random source alone. A function called with a number of arguments it does not accept fails with InvalidArgumentCount; with an accepted number its only error is Overflow (so the square root or logarithm of a negative number and division by zero are all reported as Overflow), and sum, product, avg, max, min, ceil, floor, truncate and round never return an error. The signs cannot fail, the other operators' only error is Overflow. random converts its bounds to doubles, draws one number u of [0,1), and returns the decimal form of u, of u * max rounded (from 0 to max) or of a double from min to max, or Overflow if there is none; a negative bound is NegativeValue, max below min is InvalidInput, three or more arguments InvalidArgumentCount, and these draw nothing.", "quantifier": "every decimal library, function, argument list, world, environment, configuration and build", "why_tests_cant": "ranges over all functions, argument lists and states of the random source", "anchors": ["prexel/src/decimal/mod.rs: with_config_decimal, ops", "prexel/src/decimal/decimal_ext.rs: DecimalExt", "prexel/src/ops/mod.rs: RandFunction"]}
{"id": "C84", "title": "What the rate limiter enforces", "statement": "Whatever the requests of all clients, in any period of 60 seconds one worker thread serves a client (one rate-limiter identifier) at most 199 times, and a server with n workers at most 199 n times. A client is refused (429) only if its worker has served it 100 times in the 60 seconds before. The answers to a client are those it would get if there were no other clients. A client known by an address is never given a cookie; one known by nothing is, if actix re-reads the cookie header the middleware inserts, served with a new cookie that makes it the same client when it comes back, and otherwise is answered with an error and no cookie every time. (Refuted: at most 100 requests a minute; two workers serve 200 at one instant, one worker 199 within a minute.)", "quantifier": "every sequence of requests in order of time, from any clients, given to the workers in any way, every UUID", "why_tests_cant": "ranges over all histories of requests and all schedules of the worker threads", "anchors": ["prexel-server/src/main.rs: main, get_rate_limit_middleware", "prexel-server/src/middlewares/rate_limiter.rs: get_rate_limit_identifier, generate_rate_limit_id"]}
{"id": "C85", "title": "Factorials of fractions follow Lanczos' formula", "statement": "If the platform's power and exponential functions have a relative error of at most 2^-50, then in every f64 context, checked or not, x! for x between 0 and 1 is within a relative error of 10^-12 of Lanczos' formula with the numbers printed in the source, sqrt(2 pi) t^(x + 1/2) e^-t (c0 + c1/(x+1) + ... + c14/(x+14)), t = x + 5.2421875, evaluated in the real numbers; and for x between k and k + 1, 1 <= k <= 169, within 10^-12 of x (x - 1) ... (x - k + 1) times that formula at x - k. The result is finite.", "quantifier": "every double x that is not whole and below 170, every f64 context, every library of mathematical functions that is that accurate", "why_tests_cant": "tests can try a few arguments; the rounding errors of about fifty operations have to be bounded for every double", "anchors": ["prexel/src/utils/gamma.rs: gamma", "prexel/src/ops/mod.rs: factorial (Factorial)", "prexel/src/ops/checked.rs: Factorial", "prexel/src/ops/unchecked.rs: Factorial"]}
{"id": "C86", "title": "Factorials of decimal fractions", "statement": "In the decimal context, when sqrt(2 * pi) can be evaluated: x! for 0 < x < 1 is within a relative error of 10^-12 of Lanczos' formula F with the numbers printed in the source; for x = k + f with 1 <= k <= 22 and 1/2 <= f < 1 it is within 10^-12 of x (x - 1) ... f times F(f - 1). For 1/6 <= f < 1/2 the reflection formula is wrong: the answer is within 10^-12 of x (x - 1) ... f times pi / sin(pi f) TIMES F(-f) (it should be divided by it), so that x! = x (x - 1)! fails: 1.4! is over 20 percent more than 1.4 times 0.4!. For 0 < f <= 2 / 10^17 evaluating x! panics (a division by zero).", "quantifier": "every decimal that is not whole in the ranges given, every decimal library whose arithmetic is as documented", "why_tests_cant": "tests can try a few arguments; the rounding errors of the series, the power, the exponential and the root have to be bounded for every decimal", "anchors": ["prexel/src/decimal/decimal_ext.rs: gamma, checked_factorial", "prexel/src/decimal/mod.rs: Factorial"]}
{"id": "C87", "title": "The integer contexts are a calculator", "statement": "A text that spells an expression of numerals, variables, PI, E, brackets, signs, + - * / mod ^, factorials, implied products and calls of sum, product, avg, max, min and abs (and any further functions of the context whose result is known), grouped by the usual precedences, evaluates in the checked context of an integer type of any width and sign to exactly what a reference calculator over unbounded integers computes: the exact number when every step fits the type, else the error of the first failing step (Overflow, DivisionByZero, NegativeValue, InvalidArgumentCount), or, for a factorial that does not fit, a panic in a debug build and the wrapped number in a release build. ^ is the platform's power of doubles, truncated.", "quantifier": "every integer type of at least two bits, every configuration, every expression tree of any size and every way of spelling it, every assignment of values to variables", "why_tests_cant": "the agreement is between two interpreters on all expression trees and all their spellings, including which error comes first", "anchors": ["prexel/src/evaluator.rs: eval", "prexel/src/ops/checked.rs", "prexel/src/ops/mod.rs", "prexel/src/context.rs: with_config_checked", "prexel/src/tokenizer.rs: Tokenizer::tokenize"]}
{"id": "C88", "title": "Integer requests to the server", "statement": "A server request of type integer whose variables are accepted (assignable names, numerals that fit 128 bits) and whose expression spells a tree of C87 is answered with the decimal digits of what the reference calculator computes with those variables, or with the error it gives; the random number generator and everything else is left untouched.", "quantifier": "every such request, with any number of variables and any expression, in debug and release builds", "why_tests_cant": "it composes the reading of variables, the lexer, the parser and 128-bit arithmetic for all requests", "anchors": ["prexel-server/src/services/evaluator.rs: eval_expression, eval_integer_expression", "prexel/src/evaluator.rs: eval", "prexel/src/context.rs"]}
{"id": "C89", "title": "Integer contexts never leave their type", "statement": "In a context whose variables, constants, operators and functions keep to a set of values, every text, well-formed or not, that evaluates at all evaluates to a value of that set, provided the numbers read do. The checked and the unchecked contexts of every integer type keep to the values of the type: no evaluation returns an integer outside the range, not even in a release build where unchecked arithmetic wraps around.", "quantifier": "every context and set of values; every integer type of at least two bits, checked and unchecked, every text, every number reader and splitter, every assignment of variables", "why_tests_cant": "it is an invariant of the evaluator's value stack for all texts and all built-in operations", "anchors": ["prexel/src/evaluator.rs: rpn_eval", "prexel/src/ops/checked.rs", "prexel/src/ops/unchecked.rs", "prexel/src/ops/mod.rs", "prexel/src/context.rs: with_config_checked, with_config_unchecked"]}
{"id": "C90", "title": "What a variable's name captures", "statement": "After set_variable(x, v) succeeds, a text that is the one word x evaluates to v unless x reads as a number of the type (as inf and NaN do for f64), in which case it is that number and the variable is ignored. A name that is not exactly one word of the lexer (a-b, 2x, an identifier with a non-ASCII letter) is accepted but changes the result of no text. A name that is a word and no number is the variable wherever it stands: the operator, function, bracket or comma of that name, if any, can no longer be written; so after setting a variable named like a binary operator o no text a o b of two numbers has a value. set_variable, and so the server, refuses none of these names (C19, C40).", "quantifier": "every context, name, value, number reader, text and build", "why_tests_cant": "it is about all names and all texts: that a name can never be read, or that an operator can never be written, cannot be sampled", "anchors": ["prexel/src/context.rs: set_variable", "prexel/src/tokenizer.rs: Tokenizer::tokenize", "prexel/src/utils/splitter.rs", "prexel-server/src/services/evaluator.rs: eval_expression"]}
{"id": "C91", "title": "The unchecked context over a number type without limits is exact", "statement": "Over a number type whose + - *, signs and comparisons are those of rationals (a big decimal, a big fraction), the text of an expression of numbers, variables, brackets, + - * /, implied products, signs, ! and sum, product, avg, max, min evaluates in the unchecked context to a number of exactly the value that arithmetic on rationals gives: n! of a whole number is exact whatever its size, quotients are exact where the type can write the quotient down. A division or mod by zero fails with DivisionByZero, the factorial of a negative number with NegativeValue, a wrong number of arguments with InvalidArgumentCount, and the leftmost innermost failure is the one reported. In particular the digits of k followed by ! evaluate to k!.", "quantifier": "every number type that computes exactly, every context built over it, variables, expression, text of it and build", "why_tests_cant": "it covers all number types and numbers of any size; a test has a few literals of one type", "anchors": ["prexel/examples/big_decimal.rs", "prexel/src/context.rs: DefaultContext::with_config_unchecked", "prexel/src/ops/unchecked.rs", "prexel/src/ops/mod.rs: math_ops::Factorial, Max, Min"]}
{"id": "C92", "title": "Imaginary numbers in the text", "statement": "In a complex context a number and the word i right after it, with or without white space between, are one number, the one the number type reads from the two joined; if it cannot read them joined the evaluation fails with InvalidInput, even though i is also the name of a constant. The text of any expression written with such numbers is read as that expression. With num-complex's reading (2.5 is 2.5+0i, 2.5i is 0+2.5i, i is 0+1i), a text of real and imaginary numerals, i, brackets, signs, + - * / and implied products evaluates to its exact value a+bi, provided no step needs rounding.", "quantifier": "every complex context, configuration, expression and text of it, every reading of numbers that satisfies the stated conditions", "why_tests_cant": "all nestings, spacings and neighbours of an imaginary literal (before an operator, a bracket, another number) matter, and the sign/binary decision after i depends on it; tests try a few strings", "anchors": ["prexel/src/tokenizer.rs: Tokenizer::get_tokens", "prexel/src/complex/mod.rs: ComplexContext / complex constructors", "prexel/src/context.rs: Config::with_complex_number"]}
{"id": "C93", "title": "Every accepted input is evaluated as a tree of exactly its tokens", "statement": "If any token sequence or text, also one that is not grammatical, evaluates to a value, then the value and the effects are those of an expression tree whose operands are the operands written, in order, and whose operations are the operations written and the implied multiplications, each made exactly once: nothing written is ignored, used twice or made up. So an accepted input without operations is a single operand, and a property of numbers that the operands have and all registered operations preserve holds of the result.", "quantifier": "every context, configuration, token sequence, text, splitter and build", "why_tests_cant": "it is about all accepted inputs including ungrammatical ones such as 2 3 + * 4, which no test author enumerates", "anchors": ["prexel/src/evaluator.rs: Evaluator::eval, Evaluator::eval_tokens, infix_to_rpn, rpn_eval", "prexel/src/tokenizer.rs: Tokenizer::get_tokens"]}
{"id": "C94", "title": "What each setting of a configuration does", "statement": "After any sequence of builder calls on Config::new() or Config::default() each setting has the value it was last given (off if none), whatever else was set. A context has the configuration it is built with (a complex one: with complex numbers on), and the configuration decides nothing else about the context: same constants, functions and operators under every configuration. The groupings chosen make no difference to any evaluation; complex_number makes none for tokens, nor for texts without the word i; implicit_mul makes none to tokenizing, nor where no two neighbours multiply; custom_function_call makes none to tokenizing, nor if every function name is followed by '(', and turning it on never changes an outcome other than the error InvalidInput; turned off, an input with a function name not followed by '(' never has a value.", "quantifier": "every configuration, builder sequence, context, text, token sequence and splitter; all shipped contexts over all number types", "why_tests_cant": "independence of settings is a statement about all pairs of configurations and all inputs", "anchors": ["prexel/src/context.rs: Config, Config::with_implicit_mul, Config::with_complex_number, Config::with_custom_function_call, Config::with_grouping, DefaultContext::with_config", "prexel/src/evaluator.rs: infix_to_rpn", "prexel/src/tokenizer.rs: Tokenizer::get_tokens"]}
{"id": "C95", "title": "Where an error comes from and what its kind says", "statement": "An error of an evaluation is Empty (exactly for a blank text, with no effect), InvalidInput or InvalidExpression (a malformed or unknown input), or the very error that one of the operators or functions written in the text - or the implied multiplication - returned when called, and then it was the last one called. In each shipped context the kinds an operator or function can return are fixed by its name: e.g. in checked contexts + - * ^ only Overflow, / and mod DivisionByZero or Overflow, ! NegativeValue or Overflow, max/min only InvalidArgumentCount. So DivisionByZero implies a / or mod in the text, NegativeValue implies ! or random; Zero, PositiveValue and Unknown are never returned; complex contexts never return Overflow or NAN; decimal contexts never return DivisionByZero (they report Overflow); binary contexts return only Empty, InvalidInput and InvalidExpression. This holds whatever variables, constants and settings the context has been given.", "quantifier": "every text, token sequence, splitter, number reader, random source, state; all shipped contexts (checked/unchecked over every integer type and f64, complex, decimal, binary) with any variables, constants and configuration", "why_tests_cant": "which kinds can occur is a statement about all inputs and all operand values", "anchors": ["prexel/src/error.rs: ErrorKind", "prexel/src/evaluator.rs: Evaluator::eval, infix_to_rpn, rpn_eval", "prexel/src/ops/checked.rs", "prexel/src/ops/unchecked.rs", "prexel/src/ops/mod.rs", "prexel/src/complex/mod.rs", "prexel/src/decimal/mod.rs", "prexel/src/binary/mod.rs"]}
{"id": "C96", "title": "The decimal calculator agrees with arithmetic on rationals", "statement": "A reference interpreter over the rationals says what a text is worth in the decimal context, or nothing: + - * / and implied products are exact if the result has at most 96 bits and 28 digits after the point, Overflow from 2^96 on; division and mod by zero are Overflow; mod is the truncated remainder; whole powers are exact as long as every power up to the next power of two above the exponent can be written down (so 2^64 is Overflow), x^0 = 1, zero to a negative power and exponents of 2^63 on panic, a fractional power of a negative number is Overflow; 1! = 2! = 1 (sic), 3! to 27! exact, larger and negative ones Overflow; sum, product and avg are exact while the running total can be written down and panic when it is out of range; max, min, ceil, floor, truncate, round (off ties), PI, E, variables. Whenever it says something, evaluating the text gives a decimal of exactly that value, exactly that error, or that panic; and so does the server for a request without a type or of decimal type, with the request's variables.", "quantifier": "every expression tree, every text of it, every variable assignment, library meeting rust_decimal's documented laws, splitter words and state; every request", "why_tests_cant": "exactness is claimed of all expressions; tests check single values", "anchors": ["prexel/src/decimal/mod.rs: with_config_decimal, operators and functions", "prexel/src/decimal/decimal_ext.rs: checked_powi, checked_powd, checked_factorial", "prexel/src/evaluator.rs: Evaluator::eval", "prexel-server/src/services/evaluator.rs: eval_expression"]}
{"id": "C97", "title": "Splitters with rules of one's own", "statement": "A splitter of any rules that only consume, and consume nothing when they leave a character to the others, cuts every text in exactly one way: from the left, the first rule in priority order that does not leave a character decides, giving a word or dropping what it consumed, and a character that all rules leave is a word of its own. with_numeric_rule(r) replaces numbers by r's words (digits that r leaves become single words; with the shipped rule it is the default splitter); with_identifier_rule(r) puts r's words after numbers and before names. The builder gives the rules in the order of the calls, insert_rule(i, r) putting r after the i first ones and panicking exactly if there are fewer, white space being dropped last if and only if the last whitespace call says so; with white space kept, rules that drop nothing conserve the text. An operator rule takes the longest run of its characters: those that the last add_operator/except about them added, or that were there from the start.", "quantifier": "every list of such rules, every text, every sequence of builder calls", "why_tests_cant": "the rules are the user's: no test has them, and priority, uniqueness and conservation must hold for all texts", "anchors": ["prexel/src/utils/splitter.rs: DefaultSplitter, DefaultSplitterBuilder, SplitWithOperatorsBuilder, SplitWithOperators, split_into_tokens"]}
{"id": "C98", "title": "JSON requests of the server", "statement": "A body whose text begins (after white space) with a JSON value that is a request - an object with a string `expression` and perhaps a `type` (null, the lower-case name of a type, or {name: null}) and `variables` (null or an object of strings and numbers, the last of equal names counting), or an array of the three - is evaluated as that request, whatever follows the value, whatever other members the object has and in whatever order its fields are. Every other JSON value is answered with status 400 without evaluating anything: the first field with a value it cannot have is named by its path (expression, type, type.name, variables, variables.x, deeper for a number out of range or more than 127 levels); a field given twice, a missing expression, an array of another length or a value that is neither object nor array is told as 'Invalid json'. Bytes that encode no text are answered with 400 'Invalid JSON'. A text that begins with no JSON value (by a grammar of JSON written apart from the reader) is never read as a request: what is said of it is left open.", "quantifier": "every body that is UTF-8 of a text beginning with a JSON value, every body that is not UTF-8", "why_tests_cant": "there are infinitely many JSON texts of a request, with escapes, blanks, orders and unknown members, and infinitely many wrong ones", "anchors": ["prexel-server/src/endpoints/mod.rs: eval", "prexel-server/src/models/mod.rs: EvalExpression, Variable, NumberType"]}
{"id": "C99", "title": "JSON responses of the server", "statement": "Every response of /eval is, in UTF-8, the bare result (only if asked for by only_result=true and the evaluation succeeded) or a JSON object of exactly `result` and `error` in which exactly one is null and the other is the string of the result or error; the lists of operators, functions and constants are JSON arrays of objects with exactly the names, aliases, descriptions and values. Whatever characters the strings have, what is written is JSON by RFC 8259, and no bytes are the JSON of two different values, so a client reads back exactly what was meant.", "quantifier": "every answer, every string of characters, every JSON value with valid numbers", "why_tests_cant": "error messages contain the user's own text: quotes, backslashes, control characters and any other character must be escaped right, always", "anchors": ["prexel-server/src/models/mod.rs: EvaluatedExpression", "prexel-server/src/endpoints/mod.rs: eval", "prexel-server/src/services/info.rs: FnInfo, VarInfo"]}

{"id": "C01", "title": "String literals denote exactly the text that was quoted", "statement": "For every text s, the source obtained by wrapping s in single or double quotes, writing \\\\ for backslash, \\n, \\t and an escaped quote for the quote character, parses to the string literal s and evaluates to the string value s, whatever Unicode characters s contains.", "quantifier": "every text s (every finite sequence of Unicode scalar values) and both quote characters", "why_tests_cant": "the set of texts is infinite and includes every escape/quote/multi-byte interleaving; a test fixes a few of them", "anchors": ["src/lexer.rs:Lexer::string", "src/lexer.rs:Lexer::next_token", "src/parser.rs:Parser::parse_atom", "src/lib.rs:parse"]}
{"id": "C02", "title": "Parsing always terminates and classifies every input", "statement": "For every input, parsing terminates with a tree or an error; the only input shape on which it does anything else is the arithmetic underflow on a source whose first character after the optional leading '=' is another '='.", "quantifier": "every byte sequence given to parse/evaluate", "why_tests_cant": "termination and absence of panics over all inputs cannot be established by running finitely many inputs", "anchors": ["src/lexer.rs:Lexer::next_token", "src/parser.rs:Parser", "src/lib.rs:parse"]}
{"id": "C03", "title": "Every expression tree has a source text that parses back to it (precedence and associativity)", "statement": "For every expression tree, the source written with parentheses only where the documented precedence table (ternary < || < && < ==,!= < relational < + - < * / % < unary < ^ < cast < postfix) and associativity require them parses to exactly that tree.", "quantifier": "every well-formed expression tree of any depth and width", "why_tests_cant": "round trip must hold for every nesting of every operator; tests cover a handful of operator pairs", "anchors": ["src/parser.rs:Parser::parse", "src/parser.rs:parse_ternary..parse_postfix", "src/lexer.rs:Lexer::next_token"]}
{"id": "C04", "title": "Whitespace between tokens and one leading '=' do not change the meaning", "statement": "Replacing the gaps between tokens by any other non-empty runs of spaces, tabs, newlines and carriage returns, and adding leading whitespace plus one '=' in front of a source that does not itself start with '=', leaves the parse result unchanged.", "quantifier": "every token sequence, every choice of gaps", "why_tests_cant": "quantifies over all token sequences and all gap choices", "anchors": ["src/lexer.rs:Lexer::skip_ws", "src/lib.rs:parse"]}
{"id": "C05", "title": "Input after a complete expression is silently ignored", "statement": "Parsing succeeds as soon as a complete expression (or ';' sequence) has been read: any token that cannot continue the expression ends the parse, and everything after it is dropped without an error. (So 'parse accepts only sources it consumed entirely' is false of this code.)", "quantifier": "every source that parses, every following token that is not a continuation", "why_tests_cant": "universal over prefixes and suffixes; the refuted stronger claim needs one witness, the exact behaviour needs all", "anchors": ["src/parser.rs:Parser::parse", "src/lib.rs:parse"]}
{"id": "C06", "title": "Function names, method names, keywords and cast types are case-insensitive", "statement": "Two sources that differ only in the letter case of function names, method names, TRUE/FALSE/NULL and cast type names parse to the same tree; variable names, property names and object keys stay case-sensitive.", "quantifier": "every source and every re-casing of those identifiers", "why_tests_cant": "every identifier and every casing", "anchors": ["src/parser.rs:parse_atom", "src/parser.rs:parse_cast", "src/parser.rs:parse_postfix", "src/lexer.rs:Lexer::identifier"]}
{"id": "C07", "title": "A result depends only on the variables the expression mentions", "statement": "Two evaluations of the same expression under variable maps that agree on the variables occurring in the expression (and the same registered functions) give the same result; in particular adding or changing an unmentioned variable never changes a result. A mentioned variable is the value given for it.", "quantifier": "every expression, every pair of variable maps agreeing on its variables", "why_tests_cant": "frame property over all expressions and environments", "anchors": ["src/lib.rs:evaluate_with", "src/runtime/evaluator.rs:Evaluator::eval"]}
{"id": "C08", "title": "Lambda parameters are scoped to the lambda", "statement": "FILTER/FIND/MAP/REDUCE/AVGIF/COUNTIF and the methods filter/map/find bind their parameter only while their own lambda runs: the lambda never sees the caller's binding of the same name, and the caller sees that binding unchanged before and after the call. (SUMIF is an exception: it first tries its criterion as a plain value in the caller's scope, so the caller's binding does change its result.)", "quantifier": "every expression, array, lambda body, parameter name and environment", "why_tests_cant": "scoping must hold for all nestings of lambdas", "anchors": ["src/runtime/evaluator.rs:eval_filter..eval_countif"]}
{"id": "C09", "title": "The ternary operator evaluates exactly one branch", "statement": "c ? a : b returns a's result when c is TRUE and b's when c is FALSE, whatever the other branch is (even if it would fail); the function IF(c,a,b) by contrast evaluates all three arguments and fails if any of them fails.", "quantifier": "every condition, pair of branches and environment", "why_tests_cant": "quantifies over arbitrary branches including failing ones", "anchors": ["src/runtime/evaluator.rs:eval_function_call", "src/runtime/logical.rs:exec_logical"]}
{"id": "C10", "title": "Errors propagate: operators and calls never mask a failing operand", "statement": "If any operand of a unary/binary operator, any element of an array literal, any value of an object literal, or any argument of a call other than the lambda functions, the ternary and JQ fails, the whole expression fails with that same error; (SUMIF is the exception: it masks a failing criterion); && and || evaluate both operands. A variable that is not given is an error that names it.", "quantifier": "every operator, expression and environment", "why_tests_cant": "all operand positions in all expressions", "anchors": ["src/runtime/evaluator.rs:Evaluator::eval", "src/runtime/evaluator.rs:eval_binary"]}
{"id": "C11", "title": "FILTER keeps exactly the elements whose lambda is TRUE, in order", "statement": "When the lambda yields a boolean on every element, FILTER(a, body, p) is the sub-sequence of a of the elements for which it is TRUE, in order; COUNTIF is its length, FIND its first element or NULL, and if the lambda fails on some element the call fails.", "quantifier": "every array, lambda body, parameter name and environment", "why_tests_cant": "all arrays and all lambda bodies", "anchors": ["src/runtime/evaluator.rs:eval_filter", "src/runtime/evaluator.rs:eval_find", "src/runtime/evaluator.rs:eval_countif"]}
{"id": "C12", "title": "MAP applies the lambda point-wise", "statement": "MAP(a, body, p) succeeds iff the body succeeds on each element, and then the result has the same length and its i-th element is the body evaluated with p bound to a's i-th element.", "quantifier": "every array, body, parameter and environment", "why_tests_cant": "all arrays and bodies", "anchors": ["src/runtime/evaluator.rs:eval_map"]}
{"id": "C13", "title": "REDUCE is a left fold", "statement": "REDUCE(a, body, init, v, acc) evaluates init once and then threads the accumulator through the elements from left to right; it fails exactly when init or one of the steps fails.", "quantifier": "every array, body, initial expression, parameter names and environment", "why_tests_cant": "all arrays, all bodies", "anchors": ["src/runtime/evaluator.rs:eval_reduce"]}
{"id": "C14", "title": "SUMIF / AVGIF aggregate exactly the selected numbers", "statement": "With a lambda criterion, SUMIF is the left-to-right sum of the numbers selected by the criterion and AVGIF their average (0 when nothing is selected); with a text criterion such as '>25' SUMIF sums the positions whose number satisfies the comparison, taking the addends from the sum array when one is given.", "quantifier": "every array, criterion, sum array and environment", "why_tests_cant": "all arrays and all criteria", "anchors": ["src/runtime/evaluator.rs:eval_sumif", "src/runtime/evaluator.rs:eval_avgif"]}
{"id": "C15", "title": "Spread arguments are equivalent to writing the elements out", "statement": "A call f(a1, ..., ...s, ..., an) to a built-in or custom function equals the call with the elements of the array s written in place of the spread; spreading a non-array fails.", "quantifier": "every call, argument list and array", "why_tests_cant": "all splits of all argument lists", "anchors": ["src/runtime/evaluator.rs:eval_function_call"]}
{"id": "C16", "title": "Indexing and slicing follow negative-from-the-end semantics and never read out of range", "statement": "a[i] is the i-th element for 0 <= i < len, the (len+i)-th for -len <= i < 0, and an error otherwise (fractional positions are truncated, NaN counts as 0); a[s:e] is the contiguous segment between the clamped bounds and never fails on numbers. Indexing panics exactly for positions at or below -2^63.", "quantifier": "every array and every pair of integral indices", "why_tests_cant": "all lengths and all index values including extremes", "anchors": ["src/runtime/utils.rs:index_array", "src/runtime/utils.rs:slice_array", "src/runtime/utils.rs:clamp_index"]}
{"id": "C17", "title": "Comparison operators: what = and != mean on each type", "statement": "On numbers, strings and booleans == is equality of the payload and != its negation; operands of different types are never == and always != ; NULL, arrays, JSON, dates and currency are never == to anything of their own type; ordering comparisons are defined on numbers and strings, and each agrees with the strict order.", "quantifier": "every pair of values and every comparison operator", "why_tests_cant": "all pairs of values", "anchors": ["src/runtime/evaluator.rs:eval_binary"]}
{"id": "C18", "title": "Assignment sequences run left to right and thread the variable map", "statement": "evaluate_with_assignments evaluates ';'-separated expressions in order, each top-level ':v := e' extending the map visible to later expressions; the result is the last expression's value, the returned context is the initial map updated by exactly the top-level assignments in order, the first failure aborts the whole evaluation, and the caller's map is unchanged.", "quantifier": "every sequence of expressions and initial map", "why_tests_cant": "all programs and all maps", "anchors": ["src/runtime/evaluator.rs:eval_with_assignments", "src/lib.rs:evaluate_with_assignments_and_context"]}
{"id": "C19", "title": "Safe navigation never fails on NULL and is transparent otherwise", "statement": "x&.p and x&.m(args) are NULL when x evaluates to NULL; when x is not NULL, x&.m(args) equals x.m(args), and x&.p equals x.p except that a property missing from an object gives NULL where x.p fails (on other non-NULL values both fail); a failing x still fails.", "quantifier": "every target expression, property, method, arguments and environment", "why_tests_cant": "all targets and argument lists", "anchors": ["src/runtime/evaluator.rs:Evaluator::eval", "src/runtime/evaluation/core.rs"]}
{"id": "C20", "title": "FLATTEN yields the leaves in order and is idempotent", "statement": "FLATTEN of any nested array is the left-to-right sequence of its non-array leaves; flattening again changes nothing.", "quantifier": "every nested array", "why_tests_cant": "arbitrary nesting depth", "anchors": ["src/runtime/array.rs:exec_array"]}
{"id": "C21", "title": "SORT returns an ordered permutation of the numbers, and panics exactly on NaN", "statement": "SORT of an array of non-NaN numbers is a permutation of it in ascending order; the call aborts (panics) when two or more numbers are present and one is NaN.", "quantifier": "every array", "why_tests_cant": "all arrays, all permutations", "anchors": ["src/runtime/array.rs:exec_array"]}
{"id": "C22", "title": "UNIQUE keeps the first occurrence of every number and drops everything else", "statement": "UNIQUE(a) contains each distinct number of a exactly once, in order of first occurrence, and contains no non-number.", "quantifier": "every array", "why_tests_cant": "all arrays", "anchors": ["src/runtime/array.rs:exec_array"]}
{"id": "C23", "title": "REVERSE, CONTAINS/IN, FIRST, LAST and COUNT agree with the list reading of arrays", "statement": "REVERSE(REVERSE(a)) = a; CONTAINS(a,x) is TRUE iff some element equals x; FIRST/LAST are the end elements and fail on empty arrays; COUNT is the number of elements.", "quantifier": "every array and value", "why_tests_cant": "all arrays", "anchors": ["src/runtime/array.rs:exec_array"]}
{"id": "C24", "title": "Substring functions cut on characters and never split one", "statement": "LEFT, RIGHT, MID, SUBSTRING and REPLACE return exactly the documented character segment for every text (any Unicode), clamp out-of-range positions, and LEFT(s,n) + the rest reassemble s.", "quantifier": "every text and every position/length", "why_tests_cant": "all texts and all offsets", "anchors": ["src/runtime/string.rs:exec_string"]}
{"id": "C25", "title": "SPLIT and JOIN are inverse", "statement": "JOIN(SPLIT(s, d), d) = s for every text s and non-empty delimiter d; SPLIT(JOIN(parts, d), d) = parts when d occurs neither in a part nor across a part and the separator after it (for a one-character d: when no part contains it).", "quantifier": "every text, delimiter and list of parts", "why_tests_cant": "all texts and delimiters", "anchors": ["src/runtime/string.rs:exec_string", "src/runtime/array.rs:exec_array"]}
{"id": "C26", "title": "SUBSTITUTE replaces every non-overlapping occurrence", "statement": "SUBSTITUTE(t, old, new) is the text with each leftmost non-overlapping occurrence of old replaced by new; when old does not occur t is returned unchanged.", "quantifier": "every text, pattern and replacement", "why_tests_cant": "all texts and patterns", "anchors": ["src/runtime/string.rs:exec_string"]}
{"id": "C27", "title": "Logical functions compute their truth tables over any number of arguments", "statement": "Counting TRUE and every number other than 0 as true and every other value as false, AND is TRUE iff all arguments are true, OR iff one is, XOR of two arguments iff exactly one is, NOT negates its first argument, IF picks its second or third argument, and IFS returns the value of the first true condition (FALSE when there is none); none of them fails on non-boolean arguments.", "quantifier": "every argument list", "why_tests_cant": "argument lists of any length", "anchors": ["src/runtime/logical.rs:exec_logical"]}
{"id": "C28", "title": "Aggregates flatten their arguments", "statement": "SUM/AVG/MIN/MAX/PRODUCT over any mixture of numbers and nested arrays equal the aggregate over the flattened sequence of numbers, in order.", "quantifier": "every argument list", "why_tests_cant": "all nestings", "anchors": ["src/runtime/arithmetic.rs:exec_arithmetic"]}
{"id": "C29", "title": "Dates round-trip and date arithmetic is consistent", "statement": "For every valid calendar date, YEAR/MONTH/DAY of DATE(y,m,d) give back y, m, d; DATEADD by days/weeks moves the timestamp by exactly that many days and DATEDIFF in days of the result gives the amount back; month arithmetic keeps the target month.", "quantifier": "every representable date and amount", "why_tests_cant": "all dates of the proleptic Gregorian calendar", "anchors": ["src/runtime/datetime.rs:exec_datetime"]}
{"id": "C30", "title": "Top-level dispatch and lambda-argument dispatch agree except on a known list of names", "statement": "For every built-in name and argument list, calling it at top level and calling it inside a method-call argument return the same value whenever both succeed; the names on which one path answers and the other reports an unknown function are exactly the listed ones.", "quantifier": "every function name and argument list", "why_tests_cant": "all names and all argument lists through two separately written dispatchers", "anchors": ["src/runtime/function_dispatch.rs", "src/runtime/builtin_functions.rs"]}
{"id": "C31", "title": "Type casts are total on the documented sources and idempotent", "statement": "v::T either fails or returns a value of type T; casting the result again to T returns it unchanged.", "quantifier": "every value and every target type", "why_tests_cant": "all values", "anchors": ["src/runtime/type_casting.rs:cast_value"]}
{"id": "C32", "title": "JSON text round trip", "statement": "Serialising any JSON document and parsing the text gives the document back; in particular object literals survive being carried as JSON text.", "quantifier": "every JSON document (within the parser's nesting limit)", "why_tests_cant": "all documents and all strings/escapes", "anchors": ["src/lib.rs:json_to_value", "src/runtime/evaluator.rs:value_to_json"]}
{"id": "C33", "title": "Property access and DIG read back what was stored", "statement": "{k1: v1, ...}.k is the (JSON-converted) value of the last pair with key k, NULL/err as documented when absent; DIG follows a path of keys and indices exactly when every step exists and returns the default otherwise.", "quantifier": "every object, key and path", "why_tests_cant": "all documents and paths", "anchors": ["src/runtime/evaluator.rs:eval_property_access", "src/runtime/json.rs:exec_json"]}
{"id": "C34", "title": "JSON variables arrive under their sanitised names", "statement": "evaluate_with_json binds every top-level key, with every non-alphanumeric character replaced by '_', to its converted value, and binds 'arguments' to the raw document unless a key sanitises to 'arguments'; when two keys sanitise to the same name the later one (in key order) wins.", "quantifier": "every JSON object", "why_tests_cant": "all key sets", "anchors": ["src/lib.rs:evaluate_with_json", "src/lib.rs:sanitize_json_key"]}
{"id": "C35", "title": "The function registry is a case-insensitive map", "statement": "After any history of register/unregister calls, has/list/execute behave as a finite map keyed by upper-cased name: the last successful registration wins, unregister removes exactly that name and reports whether it was present, and an invalid registration changes nothing.", "quantifier": "every history of operations", "why_tests_cant": "all histories", "anchors": ["src/custom.rs:FunctionRegistry"]}
{"id": "C36", "title": "Arity is enforced before a custom function runs", "statement": "A custom function is never executed with an argument count outside [min,max]; the caller gets an error instead.", "quantifier": "every registered function and argument list", "why_tests_cant": "all arities and calls", "anchors": ["src/custom.rs:FunctionRegistry::execute"]}
{"id": "C37", "title": "Registered functions take precedence over built-ins", "statement": "If a custom function is registered under the name of a call in any letter case, evaluation with custom functions runs it on the evaluated arguments, whatever built-in or lambda function has the same name, at top level and in the bodies of array methods; the exceptions are the three names the parser generates itself, and bodies of FILTER/MAP/... written as functions, where registered functions are not seen. If no called name is registered the outcome agrees with evaluation without custom functions, provided arguments of methods contain no positions, slices or FILTER/FIND/MAP/REDUCE calls (a counterexample shows the proviso is needed).", "quantifier": "every expression, name, registry and history of registrations", "why_tests_cant": "all expressions and registries", "anchors": ["src/runtime/evaluator.rs:eval_function_call", "src/runtime/evaluation/core.rs:eval_with_vars_and_custom", "src/lib.rs:evaluate_with_custom"]}
{"id": "C38", "title": "The thread-local function cache answers with the function registered when the name was first looked up", "statement": "A lookup through the cache returns the function that was registered under the name (in any letter case) the first time a lookup of it succeeded since the cache was created or cleared, and otherwise what the registry holds now; so with no registry change about the name since then it answers like the registry, and after an unregister or re-register it keeps the old function until cleared. Executing runs exactly that function under its arity bounds. A successful lookup counts one hit if the name was cached and one miss if not, a failed one counts nothing, clearing resets both, and the hit rate is a finite percentage between 0 and 100.", "quantifier": "every history of registry changes by any thread, cached lookups and clears", "why_tests_cant": "all histories", "anchors": ["src/concurrent_registry.rs:ThreadLocalFunctionCache"]}
{"id": "C39", "title": "The context pool is bounded and never leaks variables, whatever the schedule", "statement": "Under every interleaving of any number of threads that acquire contexts, insert variables, drop contexts and read statistics: the pool holds at most max_size maps; an acquired context holds no variables; the counters created + reused lie between the acquires that have returned and those that were called, and equal them when no call is in progress; a statistics report is within the corresponding bounds and its rate is a percentage; and while any call is in progress some thread can make a step.", "quantifier": "every number of threads, history and interleaving of pool operations at the granularity of lock and counter accesses", "why_tests_cant": "all schedules", "anchors": ["src/memory_pool.rs:VariableContextPool", "src/memory_pool.rs:PooledContext"]}
{"id": "C40", "title": "The copy-on-write context is observationally a plain map", "statement": "After any sequence of inserts, get returns the last value inserted under the key, or else the value of the base; to_combined is a map with exactly these lookups whatever order the overlay is iterated in; the shared base is unchanged; and is_modified tells whether anything was inserted.", "quantifier": "every base map and insert history", "why_tests_cant": "all histories", "anchors": ["src/memory_pool.rs:CowVariableContext"]}
{"id": "C41", "title": "No expression is evaluated for a request without the configured token", "statement": "With a token configured, an /eval request whose first Authorization line does not carry it (bare or after Bearer, in any letter case) gets 401 and its thread does nothing else; the administration requests likewise need the administration token; configuring one token protects both kinds; a request that carries the right token is treated as if no token were configured, and the public pages never ask for one. Exceptions, proved: lines of the body count as headers, an empty configured token protects nothing, a token with white space around it can never be supplied.", "quantifier": "every request text, every token configuration, every interleaving", "why_tests_cant": "all request texts and tokens", "anchors": ["src/bin/http_server/auth.rs", "src/bin/http_server/eval.rs", "src/bin/http_server/js_management.rs"]}
{"id": "C42", "title": "The result cache never changes an answer, and is bounded", "statement": "Whatever the threads do, the answer to an evaluation request is one that evaluating its expression and variables gives with the functions registered at some moment since the server started; if functions are never reloaded, with the functions there are. The cache holds at most 1000 results and the reported number is right; a result is found exactly as it was last stored, and as long as fewer than 1000 other keys were used since. Exceptions, proved: an expression that reads like another expression followed by its variables, the optional list of variables, and results of functions replaced by a reload.", "quantifier": "every history and interleaving of requests", "why_tests_cant": "all histories and interleavings", "anchors": ["src/bin/http_server/cache.rs", "src/bin/http_server/eval.rs:process_eval_request"]}
{"id": "C43", "title": "The HTTP reader assembles the same request however the bytes are chunked", "statement": "If the client sends headers ended by CRLFCRLF and exactly Content-Length body bytes (total within 1 MiB), the server reads exactly those bytes for every way the network splits them.", "quantifier": "every request and every segmentation into reads", "why_tests_cant": "all schedules of partial reads", "anchors": ["src/bin/http_server/utils.rs:read_complete_http_request"]}
{"id": "C44", "title": "Request numbers are unique and statistics count every evaluation", "statement": "Under every interleaving of any number of requests, answered evaluations carry distinct request numbers; when all is answered the processed count is the number of answered evaluations and the total time the sum of their times; meanwhile the count lies between the answered and the begun evaluations; /health reports these numbers.", "quantifier": "every interleaving of any number of requests", "why_tests_cant": "all interleavings", "anchors": ["src/bin/http_server/stats.rs", "src/bin/http_server/eval.rs", "src/bin/sk_http_server.rs"]}
{"id": "C45", "title": "A number cast to text denotes that number, and casts back to it", "statement": "For every number x (finite, infinite or NaN), x::String is a text that denotes x in the number grammar, and (x::String)::Float is x. For finite x other than zero the text is plain notation (no exponent, no superfluous zeros) of a decimal with the fewest digits of all decimals that read as x, and of those with as many digits none is closer to x.", "quantifier": "every binary64 number", "why_tests_cant": "2^64 doubles; shortest-digit printers fail on isolated values (subnormals, powers of two, half-way cases).", "anchors": ["src/runtime/type_casting.rs cast_value", "src/types.rs Display for Value"]}
{"id": "C46", "title": "Whole numbers print as plain decimal integers", "statement": "For every whole number |z| < 2^53, z::String is the sign and the decimal digits of z: no exponent, no fraction, no leading zero, and nothing else.", "quantifier": "every integer below 2^53 in absolute value", "why_tests_cant": "The set is far too large to enumerate and the digit count, sign and trailing zeros each open a case.", "anchors": ["src/runtime/type_casting.rs cast_value"]}
{"id": "C47", "title": "Arithmetic on whole numbers is exact up to 2^53", "statement": "A digit literal below 2^53 is that integer. For integers m, n up to 2^53 in absolute value, if the exact value of m + n, m - n, m * n or m / n is an integer up to 2^53, it is the result. SUM of integers whose absolute values add up to less than 2^53 is their sum.", "quantifier": "every pair of integers, every list of integers, within the bound", "why_tests_cant": "A claim about all pairs of 54-bit integers and all lists.", "anchors": ["src/runtime/evaluation/core.rs eval", "src/runtime/arithmetic.rs SUM", "src/lexer.rs number"]}
{"id": "C48", "title": "Number literals and arithmetic operators are correctly rounded", "statement": "A decimal literal evaluates to the double closest to the written rational number, of two equally close ones the one with the even significand (infinity only beyond the largest double by half a step). For finite x and y the operators + - * / return the double closest to the exact result in the same sense, and exactly the result when a double can hold it; % and MOD return exactly x - y * trunc(x / y); unary minus is exact. A zero result has the sign IEEE 754 prescribes. With an infinite or NaN operand, or a zero divisor, the operators return the infinity, zero, operand or NaN that IEEE 754 prescribes, and never fail.", "quantifier": "every literal of any length, every pair of finite doubles", "why_tests_cant": "Rounding errors show on rare operand pairs and on literals with many digits.", "anchors": ["src/lexer.rs number", "src/runtime/evaluation/core.rs eval", "src/runtime/arithmetic.rs MOD"]}
{"id": "C49", "title": "Rounding functions return the documented whole number", "statement": "For every finite x: FLOOR and INT return the greatest integer not above x, CEIL and CEILING the least integer not below x, ROUND the nearest integer with halves away from zero, ABS the absolute value, all exactly. ROUND(x, d) for d up to 22 rounds the scaled number x * 10^d (itself correctly rounded) half away from zero and divides back, correctly rounded.", "quantifier": "every finite double and every digit count up to 22", "why_tests_cant": "Half-way cases and magnitudes around 2^52 are isolated points among 2^64 inputs.", "anchors": ["src/runtime/arithmetic.rs ROUND FLOOR CEIL INT ABS"]}
{"id": "C50", "title": "The registry shared between threads is a case-insensitive map", "statement": "After any sequence of register and unregister calls, whichever threads made them: a name is present exactly when the last valid operation about it, in any letter case, registered it; listing gives each upper-cased name once and len is their number; execution runs the last registration when the number of arguments is within its bounds and otherwise fails without running it; a registration is accepted exactly when the name is not empty and the bounds are in order; unregister reports whether there was something to remove.", "quantifier": "every history of calls", "why_tests_cant": "all histories", "anchors": ["src/concurrent_registry.rs:ConcurrentFunctionRegistry"]}
{"id": "C51", "title": "Extension points resolve by exact name, last registration winning, and method handlers by first match", "statement": "After any sequence of registrations, get_function, get_converter and get_data_source return the last registration under exactly that name; find_method_handler returns the first registered handler that accepts the value and method; the default argument check accepts exactly the declared number of arguments; a constant data source fetches exactly its keys, and exists says so.", "quantifier": "every sequence of registrations, every name, value and method", "why_tests_cant": "all histories", "anchors": ["src/traits.rs:ExtensionRegistry", "src/traits.rs:ConstantDataSource", "src/traits.rs:MemoryVariableResolver"]}
{"id": "C52", "title": "A request changes only what it is meant to change", "statement": "Whatever other threads do, a request to evaluate changes neither functions nor files; the public pages and the list of functions change nothing; upload, update and delete change at most one file; reloading changes nothing but the functions; clearing the cache nothing but the cache. A request for an unknown path or method gets 404, one with fewer than three words in its first line or that could not be read gets 400, OPTIONS is always answered, and none of these changes anything.", "quantifier": "every request text, every state and interleaving", "why_tests_cant": "all request texts and interleavings", "anchors": ["src/bin/sk_http_server.rs:handle_request", "src/bin/http_server/eval.rs", "src/bin/http_server/js_management.rs"]}
{"id": "C53", "title": "What a request to evaluate asks for is read exactly", "statement": "A request to evaluate asks for at most one thing: an expression, its variables, the form of the result, and the variables to be shown. Every expression and every variable sent in a query, in UTF-8 and escaped as in any URL, arrives; the last parameter of a name counts, names without '=' are left out. Any layout of a JSON object is read, its expression a text or several texts to be joined, variables to be shown given as true, false or names. A request that asks for nothing gets status 400 and changes nothing. Refuted: queries as forms send them ('+' for a space), texts such as 'Nan' as variables (they arrive as null).", "quantifier": "every request text", "why_tests_cant": "all texts, all escapes, all layouts of JSON", "anchors": ["src/bin/http_server/eval.rs:handle_eval_get", "src/bin/http_server/eval.rs:handle_eval_post", "src/bin/http_server/types.rs", "src/bin/http_server/utils.rs:parse_json_body"]}
{"id": "C54", "title": "Every answer is a well-formed HTTP response", "statement": "Every answer the HTTP server sends consists of a status line, header lines without line breaks in them, an empty line and a body, and the first Content-Length header is the number of bytes of the body.", "quantifier": "every run of the server and every request", "why_tests_cant": "all requests, results and error texts", "anchors": ["src/bin/http_server/utils.rs:create_http_response", "src/bin/http_server/utils.rs:create_options_response"]}
{"id": "C55", "title": "An answer shows exactly the asked variables that are new or changed", "statement": "An answer to a request that asks for variables has, as JSON, exactly those asked variables that are new or have another value after the evaluation, unless somebody asked for the same expression without its variables (then they may be missing); if there are none, it has no list of variables. Who does not ask gets none.", "quantifier": "every history and interleaving of requests", "why_tests_cant": "all expressions, variables and histories", "anchors": ["src/bin/http_server/eval.rs:process_eval_request", "src/bin/http_server/cache.rs:evaluate_with_cache"]}
{"id": "C56", "title": "An upload stores exactly the source that was sent, as JSON or as a form", "statement": "An authorised upload whose body is a JSON object, or a multipart form as browsers and curl send it, with a file name ending in .js and the source of a function, is answered 200 with that function's name, and afterwards the file of that name in the hooks directory has exactly that source and no other file changed. An update does the same if the file exists and answers 404 otherwise. A name without .js or a source that is no function is refused with 400 or 404 and changes nothing. Refuted: that a field whose content ends with white space or two dashes is stored as it is, and that a boundary in quotation marks is understood.", "quantifier": "every request text, file name, source, set of form fields and boundary, every state of the server", "why_tests_cant": "Sources, names, boundaries and the fields around them are arbitrary texts.", "anchors": ["src/bin/http_server/multipart.rs:parse_multipart_data", "src/bin/http_server/js_management.rs:handle_upload_js", "src/bin/http_server/js_management.rs:handle_update_js", "src/bin/http_server/js_management.rs:parse_upload_request"]}
{"id": "C57", "title": "The annotations in the comments of a JavaScript source describe its function", "statement": "A source is accepted exactly if it has a line // @name: and its number annotations are numbers. The function has the last name annotated, the last least and greatest number of arguments (1 and unlimited by default), the last description and example, and the whole source as its code. Refuted: that an upload always gets an answer; an example with an argument that is a single quotation mark ends the connection without one.", "quantifier": "every text", "why_tests_cant": "Comments come in any number, order and spelling.", "anchors": ["src/js_plugin.rs:parse_js_function", "src/bin/http_server/js_management.rs:parse_function_arguments"]}
{"id": "C58", "title": "Listing, deleting and loading act on exactly the JavaScript files of the hooks directory", "statement": "The list has exactly the .js files at any depth of the hooks directory, sorted by name, each with what its annotations say. Deleting removes exactly the named file, and a missing one is reported and nothing changes. Loading counts the files with a function and registers each under its name in any letter case, keeping the other functions; if one cannot be registered it answers 500. An uploaded function can be called, once the functions are loaded, with the numbers of arguments it allows, and gives what its source computes. Refuted: that uploads stay inside the hooks directory (a name with .. leaves it), that a deleted function is gone after loading, that one bad function does not keep others from being loaded, and that every stored file is found (.js is not).", "quantifier": "every state of the server and its files, every request text", "why_tests_cant": "File trees, annotations and histories are arbitrary.", "anchors": ["src/bin/http_server/js_management.rs:handle_list_js", "src/bin/http_server/js_management.rs:handle_delete_js", "src/bin/http_server/js_management.rs:handle_reload_hooks", "src/js_plugin.rs:JSPluginLoader"]}
{"id": "C59", "title": "Evaluation crashes only where a closed list says", "statement": "If evaluating an expression crashes (rather than ending with a value or an error), then the text starts with two equal signs, or it contains: a position that can be -2^63 or less; a call of SORT, MEDIAN, a percentile or a quartile that can be given two or more figures with a NaN among them; a DATEADD that can leave the calendar; a registered function that crashes on values it can be given; or the method sort on an array of figures with a NaN. An expression with none of these crashes for no variables. That evaluation never crashes is refuted, for every kind on the list.", "quantifier": "every expression text, all variables, every set of custom functions, every JSON text of variables, every entry point of the library", "why_tests_cant": "Crashes hide in combinations of operators, functions and values; a test that does not crash says nothing about the next input.", "anchors": ["src/lib.rs:evaluate_with_custom", "src/lib.rs:evaluate_with", "src/lib.rs:evaluate_with_assignments", "src/runtime/builtin_functions.rs:exec_builtin", "src/runtime/evaluation/core.rs:eval_with_vars_and_custom", "src/runtime/method_calls/mod.rs:exec_method"]}
{"id": "C60", "title": "The command sk starts with the functions of the hooks directory", "statement": "Before anything else, sk registers the functions of exactly the JavaScript files below the hooks directory whose annotations can be read (of functions with the same name, the last one read), and says on standard error how many; if one of them is refused, those before it are registered and a warning is written; if the directory cannot be read there is a warning and no function. A call of a registered function runs its source with the values of its arguments. That loaded functions can be called in every expression is refuted: an expression with statements is evaluated without them. That a refused function does not affect the others is refuted.", "quantifier": "every set of files, every order of the directory, every command line, every failure of the directory", "why_tests_cant": "The files, their order and their annotations are arbitrary, and the outcome depends on where the first refused function stands.", "anchors": ["src/bin/sk.rs:main", "src/js_plugin.rs:JSPluginLoader::auto_register", "src/js_plugin.rs:JSPluginLoader::load_functions", "src/custom.rs:FunctionRegistry::register"]}
{"id": "C61", "title": "The numbers of a result are doubles, and their texts read back", "statement": "Every number in the result of an evaluation, however deep in arrays and objects, is a 64-bit floating-point number (an element of the finite set, an infinity or NaN), and so is every number in the variables that assignments leave; hence a result cast to text denotes exactly that result, and casting the text back gives it.", "quantifier": "every expression text, all variables and custom functions made of doubles, every JSON text of variables, every entry point of the library", "why_tests_cant": "The property passes through every operator, function and method and every combination of them.", "anchors": ["src/lib.rs:evaluate_with_custom", "src/lib.rs:evaluate_with_json", "src/runtime/evaluation/core.rs:eval_with_vars_and_custom", "src/runtime/type_casting.rs:cast_value", "src/lib.rs:json_to_value"]}
{"id": "C62", "title": "MEDIAN is the middle figure", "statement": "MEDIAN looks at the numbers and currency amounts among its arguments, at any depth of nested arrays, and ignores everything else. With none it is 0; with an odd count it is a figure with equally many at most and at least as large on either side; with an even count it is half the floating-point sum of the two middle figures. A NaN among two or more figures makes the call panic.", "quantifier": "every list of arguments with any nesting, order and repetition", "why_tests_cant": "Ordering properties must hold for every permutation and every duplicate pattern.", "anchors": ["src/runtime/statistical.rs:exec_statistical MEDIAN", "src/runtime/statistical.rs:collect_numbers"]}
{"id": "C63", "title": "MODE is the most frequent figure, the earliest among equals", "statement": "MODE_SNGL and MODESNGL return, of the numbers and currency amounts at any depth, the one that occurs most often, and among those the one that occurs first; 0 if there is none. The documented name MODE.SNGL, like every documented name with a dot, cannot be written in an expression (refuted).", "quantifier": "every list of arguments", "why_tests_cant": "Ties and repetitions come in unboundedly many patterns.", "anchors": ["src/runtime/statistical.rs:exec_statistical MODE.SNGL", "README.md", "src/lexer.rs:identifier"]}
{"id": "C64", "title": "Percentiles interpolate between neighbouring figures", "statement": "PERCENTILE_INC(figures..., p) fails when p is outside 0..1; otherwise it rounds the position p * (n - 1) once to a double r and returns the figure of rank r if r is whole, else the two neighbours weighted by the distance. p = 0 gives the smallest and p = 1 the largest figure; no figures give 0. QUARTILE_INC(figures..., q) is the percentile q/4 and fails outside 0..4. That a percentile lies between the smallest and the largest figure is refuted.", "quantifier": "every list of figures and every finite percentile", "why_tests_cant": "Positions that fall exactly on a figure or next to one are isolated points.", "anchors": ["src/runtime/statistical.rs:exec_statistical PERCENTILE.INC QUARTILE.INC"]}
{"id": "C65", "title": "Variance and standard deviation", "statement": "VAR_P is the mean of the squared differences from the mean, never negative; STDEV_P is the double closest to its square root. For whole numbers with whole mean and whole variance the result is exact, and the deviation too if it is whole. That equal figures have variance 0 is refuted.", "quantifier": "every list of figures", "why_tests_cant": "Rounding of sums and square roots varies with every input.", "anchors": ["src/runtime/statistical.rs:exec_statistical VAR.P STDEV.P"]}
{"id": "C66", "title": "SQRT is correctly rounded", "statement": "For every finite x > 0, SQRT(x) is the double closest to the square root of x; if the root is a double it is returned exactly. SQRT of a zero is that zero, of a negative number NaN, of infinity infinity.", "quantifier": "every double", "why_tests_cant": "There are 2^63 positive doubles, with half-way cases arbitrarily close.", "anchors": ["src/runtime/arithmetic.rs SQRT"]}
{"id": "C67", "title": "Predicate methods decide what their names say", "statement": "value.name?() with name in any letter case is TRUE or FALSE: positive/negative/zero ask it of a number (FALSE for everything else), numeric and array ask for the kind, nil for null, blank for null, [] or white text, present for the contrary; even/odd ask for the parity of the whole part of a number below 2^63. Unknown predicates fail. That parity is right for every number, and that amounts of money have a sign, is refuted.", "quantifier": "every value, context, predicate name in any letter case, and argument list", "why_tests_cant": "Values are unboundedly many; NaN, zeros and 2^63 are isolated points.", "anchors": ["src/runtime/method_calls/mod.rs:exec_method", "src/runtime/method_calls/predicates.rs"]}
{"id": "C68", "title": "Conversion methods", "statement": "to_s gives the text of a value (whole numbers without a point, amounts with two decimals rounded half to even of the exact value, arrays in brackets), to_f its number, to_i the number cut at the point, to_a its elements, to_bool whether it is none of null, FALSE, 0, '' and []; to_json gives JSON text that reads back as the value, and fails on NaN and infinities. Null converts to {} (refuted that it reads back as null).", "quantifier": "every value and every context", "why_tests_cant": "Conversions involve decimal printing and reading of all doubles and nested values of any depth.", "anchors": ["src/runtime/method_calls/conversion_methods.rs"]}
{"id": "C69", "title": "Text methods", "statement": "upper, lower, trim, reverse, contains, starts_with, ends_with, split, replace and substring do what the words say, with positions counted from 0 in characters; upper, lower and trim equal the functions UPPER, LOWER and TRIM; length is the UTF-8 size (refuted to agree with LENGTH).", "quantifier": "every text, every argument text and number, names in any letter case", "why_tests_cant": "Texts are unbounded, with overlapping occurrences and multi-byte characters.", "anchors": ["src/runtime/method_calls/string_methods.rs"]}
{"id": "C70", "title": "Array methods", "statement": "length, first, last (null if there is none), reverse, unique (first occurrences of values of any kind), sort (a stable sorted permutation, ascending or, if the argument starts with DESC, descending), sum, avg, min, max (null for an empty array), join, contains, flatten and compact; sum, avg, min, max and sort reject elements that are not numbers. That FIRST agrees with first is refuted.", "quantifier": "every array of any nesting and length, every argument", "why_tests_cant": "Arrays are unbounded and nested.", "anchors": ["src/runtime/method_calls/array_methods.rs"]}
{"id": "C71", "title": "Number methods", "statement": "floor, ceil, round (half away from zero) and int (towards zero) give exactly the whole number; abs the exact absolute value; sqrt the closest double, failing on negative numbers; between(a, b) asks a <= x <= b. That they agree with INT, ROUND and SQRT everywhere is refuted.", "quantifier": "every representable number", "why_tests_cant": "There are 2^64 doubles.", "anchors": ["src/runtime/method_calls/mod.rs:exec_method"]}
{"id": "C72", "title": "Methods of JSON objects", "statement": "keys gives the keys in order, values the values in the order of the keys, has_key whether the key is present, dig the value at a path of keys and positions, or the default (null) if there is none; keys and values fail on other documents.", "quantifier": "every JSON document, key and path", "why_tests_cant": "Documents are of any depth and size.", "anchors": ["src/runtime/method_calls/mod.rs:exec_method"]}
{"id": "C73", "title": "Values have exactly the documented methods", "statement": "A method a value does not have fails, whatever the arguments, and so does a method with too few arguments; null, booleans, amounts and dates have only the conversions. That custom functions can be used in method arguments is refuted.", "quantifier": "every value, every ASCII method name, every argument list", "why_tests_cant": "Names are unboundedly many.", "anchors": ["src/runtime/method_calls/mod.rs:exec_method"]}
{"id": "C74", "title": "Text and information functions", "statement": "CONCAT joins the texts of its arguments, flattening arrays (numbers as the String cast writes them, TRUE/FALSE, nothing for null, amounts, dates and objects); LENGTH counts characters or elements, 0 for null, and fails otherwise; UPPER, LOWER, TRIM and INCLUDES do what they say and reject other kinds; ISBLANK, ISNUMBER and ISTEXT decide the kind of the value.", "quantifier": "every value at any depth, every text", "why_tests_cant": "Texts and nested arrays are unbounded.", "anchors": ["src/runtime/string.rs:exec_string"]}
{"id": "C75", "title": "BETWEEN and powers", "statement": "BETWEEN(a, b, x) is a <= x <= b with both ends included, FALSE with NaN; POW, POWER and ^ give the same power, with base and exponent in that order.", "quantifier": "all numbers including NaN and infinities", "why_tests_cant": "Boundaries are single points among all doubles.", "anchors": ["src/runtime/logical.rs BETWEEN", "src/runtime/arithmetic.rs POW", "src/runtime/evaluator.rs"]}
{"id": "C76", "title": "JQ passes the document to the path engine and its matches back", "statement": "For a path starting with $, JQ(value, path) hands the engine the JSON document of the value (whole numbers as integers) and returns the match, [] if there is none, or the array of all matches in order; it fails for other paths, for an error of the engine, and with any number of arguments but two.", "quantifier": "every value, every document, every answer of the engine", "why_tests_cant": "Documents are of any depth and the engine may answer anything.", "anchors": ["src/runtime/evaluator.rs JQ", "src/runtime/jsonpath.rs:apply_jsonpath"]}
{"id": "C77", "title": "Financial functions", "statement": "PMT and FV follow the annuity formulas (interest-free if the rate is 0); without interest, whole amounts that divide evenly give exact payments that lead exactly to the future value; IPMT of the first period is the interest on the present value; DB depreciates by the fixed declining balance with the months of the first and last year, 0 after the life; out-of-range and missing arguments fail. That IPMT of later periods is the interest on the remaining debt, and that period 0 is refused by DB, is refuted.", "quantifier": "all numbers, all periods, all optional arguments", "why_tests_cant": "Schedules are of any length and rates arbitrary.", "anchors": ["src/runtime/financial.rs:exec_financial"]}
{"id": "C78", "title": "The command sk evaluates its expression with the variables it is given", "statement": "sk EXPR followed by options in any order and number prints the result of evaluating EXPR with the variables name=text (the first '=' ends the name, the last text of a name counts, and the text is read as a quoted text, TRUE/FALSE/NULL in any letter case, an array, a number or plain text), or with the last JSON object given by --json, in which case the others are ignored. The status is 0 with the result on standard output (as JSON that reads back, with --output-json), 2 with the error on standard error, or 1 with a message for a command line that is not of this form. That no value crashes the command and that arrays may be nested or contain quoted commas is refuted.", "quantifier": "every command line, every expression, every set of custom functions", "why_tests_cant": "Command lines are arbitrary texts in arbitrary order and number.", "anchors": ["src/bin/sk.rs:main", "src/bin/sk.rs:parse_value", "src/bin/sk.rs:format_json_output"]}
{"id": "C79", "title": "The server of JSON lines answers every line, in order, under every interleaving", "statement": "Whatever the other connections do, the answers on a connection to sk_server are the answers to its non-blank lines, in order, each on one line: the result of the line's expression with the line's variables, its error message, a refusal if the line is not a request, or a refusal if it lacks the server's token. No two answers of the server carry the same number; on a connection they increase. A connection that keeps being served reaches its end, and then every line has its answer, unless the client hung up or evaluating one of its own lines crashed; a crash silences the rest of that connection only, and a line that is not UTF-8 ends it.", "quantifier": "all byte streams, connections, interleavings of the worker threads, tokens, registries and request texts", "why_tests_cant": "Numbers and answers race on shared counters; tests see a few schedules and a few requests.", "anchors": ["src/bin/sk_server.rs:handle_client", "src/bin/sk_server.rs:process_request", "src/bin/sk_server.rs:ServerStats"]}
{"id": "C80", "title": "The client of the server of JSON lines sends its command line and prints the answer", "statement": "sk_client ADDRESS EXPR followed by variables, --json, --output-json and --token in any order and number sends one line, which the server reads as that expression with those variables (the last text of a name, or the last JSON object), that output form and the last token; against a server with that token it prints the result of the expression and exits with 0, or prints the error message and exits with 2; with another token it prints the refusal and exits with 2. That it gives the results sk gives for the same command line is refuted.", "quantifier": "every command line, every expression, every token, every set of custom functions, all variables JSON carries without loss", "why_tests_cant": "Command lines and JSON documents are arbitrary texts, and the property joins two programs.", "anchors": ["src/bin/sk_client.rs:main", "src/bin/sk_client.rs:parse_value_to_json", "src/bin/sk_client.rs:send_request"]}
{"id": "C81", "title": "The servers run with the settings of their command line", "statement": "A server started with a port (0 to 65535) followed by its options in any order and number runs with the last value of each option, or the default (for sk_server the environment's host and token first); for the HTTP server a single token given guards evaluation and administration alike; a word that looks like an option but follows an option that takes a value is that value. Any other command line ends the program with a message and status 1. That sk_server never crashes at its start is refuted: it accepts 0 threads.", "quantifier": "every command line, every environment", "why_tests_cant": "Options come in any order and number, with arbitrary values.", "anchors": ["src/bin/sk_server.rs:main", "src/bin/sk_http_server.rs:parse_args", "src/bin/sk_http_server.rs:main", "src/bin/http_server/auth.rs:TokenConfig"]}
{"id": "C82", "title": "A server started as a daemon is detached, and its pid file names the process that serves", "statement": "When all system calls succeed, the program goes on in a process that is in a new session it does not lead, whose output goes to /dev/null and whose other descriptors are unchanged; the two processes before it have ended with status 0; the pid file holds the number of the serving process and no other file changed. When a call fails nothing serves, no file is written and the failing process ends with status 1. Without the option nothing of this happens. That the status of the command tells whether the server runs is refuted (it is 0 once the first fork succeeds), and so is that standard input is /dev/null (it is left closed, and the next file or socket opened gets its number).", "quantifier": "every outcome of the system calls, every table of open descriptors, every settings", "why_tests_cant": "System calls fail at every point; descriptor tables are arbitrary.", "anchors": ["src/bin/http_server/daemon.rs:daemonize", "src/bin/http_server/daemon.rs:write_pid_file", "src/bin/sk_http_server.rs:handle_daemon_mode", "src/bin/sk_server.rs:daemonize"]}
{"id": "C83", "title": "Connections are served in order, each once, at most one per thread; an interrupted sk_server finishes what it let in", "statement": "In every run of either server at most as many connections are handled at a time as there are threads; connections are taken in the order of arrival, none is skipped and none handled twice. After an interrupt at most one more connection is let in, and the server ends after boundedly many steps provided handlers end. sk_server ends only after an interrupt and then every connection it let in has been handled to the end. That sk_http_server does the same is refuted: it may end while connections are being handled or wait for a thread. That a connection is served without waiting for others to be closed is refuted: as many idle connections as threads hold up all others, and an interrupted sk_server as well.", "quantifier": "every interleaving of clients, threads, accept failures and the signal, any number of threads and connections", "why_tests_cant": "The order of events is up to the scheduler and to the clients.", "anchors": ["src/bin/sk_server.rs:main", "src/bin/sk_http_server.rs:main", "src/bin/http_server/daemon.rs:setup_signal_handlers"]}
{"id": "C84", "title": "The client's benchmark sends the request it was given and reports what it saw", "statement": "sk_client ADDRESS --benchmark EXPR with the client's options and a count anywhere among them sends the request of that command line ten times and then as often as the count given last says (100 otherwise); the first of the ten that is not answered ends the run. It counts successes and failures so that they add up to the count, tells at most five failures, and shows times that answered requests took: the least, the 50th, 95th and 99th percentile, the most, in that order, and the mean. It says that all requests failed exactly if none after the first ten was answered, and never crashes on the figures. That the status tells whether the evaluations succeeded is refuted.", "quantifier": "every command line, every sequence of answers and times", "why_tests_cant": "Answers and times are arbitrary and differ from request to request; the position of a percentile is computed in doubles.", "anchors": ["src/bin/sk_client.rs:main", "src/bin/sk_client.rs:run_benchmark_with_request", "src/bin/sk_client.rs:percentile"]}
{"id": "C85", "title": "The HTTP benchmark sends what its tests say and counts what the server says", "statement": "sk_http_bench with an address and readable options asks the server for its health, and every skillet HTTP server passes whatever its tokens and state; anything else ends the program with a message. Its tests are a fixed list: the warm-up, six expressions, one expression with 1, 5, 10, 20 and 50 threads (those not above the number of requests), one sequence of assignments with three choices of variables; each request of a test is one the server understands as asking for that expression, and the requests are shared out evenly. Whatever order the threads run in, when a test is over every request was sent once, the successes are the answers that say so, the rest are errors, the times are those of the successes, and the least, the most and the average shown are theirs. An answer to an evaluation is taken for a success exactly if its status is 200, whatever texts are in it. Against a fresh server used by nobody else every request succeeds, except those of one test: it calls a function (range) that does not exist. Further refuted: '-w 0' crashes, '-c' has no effect, the warm-up may send fewer requests than asked for, characters outside ASCII arrive as others.", "quantifier": "every command line, every order of the threads' steps, all answers and times, all tokens, worlds and concurrent runs of the server", "why_tests_cant": "Counting is spread over threads that interleave freely, and whether a substring test agrees with the status depends on arbitrary error texts and values inside the answer.", "anchors": ["src/bin/sk_http_bench.rs:parse_args", "src/bin/sk_http_bench.rs:check_server_health", "src/bin/sk_http_bench.rs:make_request", "src/bin/sk_http_bench.rs:run_warmup", "src/bin/sk_http_bench.rs:run_concurrent_benchmark", "src/bin/sk_http_bench.rs:url_encode", "src/bin/sk_http_bench.rs:make_json_request", "src/bin/http_server/eval.rs:process_eval_request"]}
{"id": "C86", "title": "Requests in JSON: only JSON is read, unknown fields do not matter, repeated ones are refused", "statement": "Whatever text is accepted as JSON, as a line for sk_server or as the body of POST /eval, is a JSON text by the grammar of RFC 8259. In a request the order of the known fields does not matter and members with other names are ignored, whatever their values, even values that could not be read (numbers beyond f64, lone surrogates, any depth of nesting); a known field given a second time makes the whole request invalid, whatever follows: sk_server answers 'Invalid JSON request', the HTTP server answers status 400 and nothing changes.", "quantifier": "every text, every list of members in any layout, all values of unknown members, all tokens and states", "why_tests_cant": "The grammar is recursive and unknown members nest without bound; a test fixes finitely many shapes.", "anchors": ["src/bin/sk_server.rs:EvalRequest", "src/bin/sk_server.rs:handle_client", "src/bin/http_server/types.rs:EvalRequest", "src/bin/http_server/eval.rs:handle_eval_post", "src/bin/sk_client.rs:EvalResponse"]}
{"id": "C87", "title": "JSON texts are read exactly as what they stand for", "statement": "A text given as JSON (--json, variables, requests, JSON values inside expressions) is read if and only if it stands for a JSON value by RFC 8259 with at most 127 levels of brackets, and then as that value: white space between tokens does not matter, strings may be spelled with any escapes, the members of an object come in any order and of several with the same name the last counts; whole numbers of 64 bits are exact and decimals with fewer than 2^53 in digits and a power of ten within 22 are the nearest double.", "quantifier": "every text and every JSON value; every spelling of every string; all numbers within the limits", "why_tests_cant": "Texts, escapes and nesting are unbounded, and that nothing else is accepted is a statement about all other texts.", "anchors": ["src/lib.rs:evaluate_with_json", "src/lib.rs:json_to_value", "src/bin/sk.rs:main", "src/bin/sk_client.rs:main", "src/runtime/json.rs:exec_json"]}
{"id": "C88", "title": "Values pass into JavaScript and out of it as what they are", "statement": "Calling a function of a JavaScript file gives exactly what its execute function returns for the arguments as JavaScript sees them: numbers, booleans, arrays and texts (as UTF-16) are themselves, null is undefined, amounts and dates are numbers and JSON values are texts; what is returned is read back the same way, null and undefined as null, an object as the JSON text of JSON.stringify. So an argument made of numbers, texts, booleans, null and arrays that is returned comes back unchanged. A source that does not load, has no execute function or throws is an error with its message, a text with a lone surrogate is an error, and only an array that contains itself can crash the process.", "quantifier": "every function, every list of arguments at any nesting, every behaviour of the JavaScript engine", "why_tests_cant": "Values nest without bound and texts range over all of Unicode; that nothing else crashes is about all results.", "anchors": ["src/js_plugin.rs:value_to_js", "src/js_plugin.rs:js_to_value", "src/js_plugin.rs:execute", "src/custom.rs:FunctionRegistry::execute"]}
{"id": "C89", "title": "The HTTP server gives the same answer to the same question", "statement": "Two requests for the evaluation of the same expression with the same arguments, in any order and layout, get the same status, success, result (but for the time it took) and error, whatever was asked before or at the same time and whatever order hash maps are iterated in, also from two servers on different computers with the same functions; provided no two arguments become variables of the same name and the expression does not read the JSON text of all arguments.", "quantifier": "all expressions, arguments, concurrent histories and hash map orders of both servers", "why_tests_cant": "Hash map order changes from run to run and cannot be chosen by a test; histories and interleavings are unbounded.", "anchors": ["src/bin/http_server/eval.rs:process_eval_request", "src/bin/http_server/cache.rs:evaluate_cached", "src/lib.rs:sanitize_json_key"]}
{"id": "C90", "title": "The command and the client of the server tell the same", "statement": "The same words on the command lines of sk and of sk_client, the latter with a server that has the same functions, have the same effect: both exit with the same status and tell the same result and type, or the same error message; provided each variable is a text in quotes, true, false or null in small letters, a finite number or a text that looks like none of these, or the variables are a JSON object whose keys are names and the expression does not use :arguments; and JSON carries the numbers sent and returned without loss.", "quantifier": "all expressions, with statements or without, all variables and JSON texts, all functions, tokens and behaviours of the platform", "why_tests_cant": "The two programs read their arguments with different code; that they agree is a statement about all texts, expressions and registries.", "anchors": ["src/bin/sk.rs:main", "src/bin/sk.rs:parse_value", "src/bin/sk_client.rs:main", "src/bin/sk_client.rs:parse_value_to_json", "src/bin/sk_server.rs:process_request"]}
{"id": "C91", "title": "What sk prints for a result", "statement": "Without --output-json, sk prints a result as its kind and, in parentheses, its content: a number with the fewest digits that give it back, with digits on both sides of a point, or as digits and a power of ten if it is below 1/10000 or from 10^16 on; a text in quotes with quotes, backslashes, tabs, line ends and characters that cannot be seen escaped; an array as its elements in brackets. Two runs print the same exactly if their results are the same value.", "quantifier": "all expressions, variables, registries and results, nested to any depth", "why_tests_cant": "That every number is printed with the fewest digits and that no two results are printed alike are statements about all values.", "anchors": ["src/bin/sk.rs:main", "src/types.rs:Value"]}
{"id": "C92", "title": "Arguments of text functions left out, empty or of the wrong kind", "statement": "SPLIT without a separator gives the pieces between commas without the white space around them, and with the empty separator the characters between two empty texts; SUBSTITUTE of the empty text puts the replacement before, between and after the characters; each function on texts fails if it has too few arguments or one of the wrong kind, whatever the others are.", "quantifier": "all texts and arguments of every kind and number, all expressions that give them, all contexts", "why_tests_cant": "Which argument lists are refused is a statement about all lists of values; the pieces of a text about all texts.", "anchors": ["src/runtime/string.rs:exec_string"]}
{"id": "C93", "title": "What a cast gives", "statement": "A cast gives what its type says: Float and Currency the number of a value (1 and 0 for TRUE and FALSE, 0 for null, the number a text denotes), Integer and DateTime the whole number towards zero that 64 bits hold, String the text of a value (numbers with the fewest digits, amounts with four decimals, arrays as their elements with their kinds), Array the array or an array of the value, Boolean FALSE exactly for empty values, Json the JSON text of a value that is not a text.", "quantifier": "all values nested to any depth, all types, all expressions and contexts", "why_tests_cant": "The result of a cast is determined for every value of every type, including every double and every amount to four decimals.", "anchors": ["src/runtime/type_casting.rs:cast_value"]}
{"id": "C94", "title": "Arguments of functions on arrays", "statement": "JOIN puts its separator, or a comma if it has no text for one, between the texts of the elements and fails if one is an array; FIRST, LAST, CONTAINS, UNIQUE, SORT, REVERSE and JOIN fail unless their first argument is an array; COUNT takes one array or null, IN an array and a value; CONTAINS without a value looks for null.", "quantifier": "all argument lists of every kind and number, all arrays, all expressions that give them, all contexts", "why_tests_cant": "Which argument lists are refused is a statement about all lists of values; the text of JOIN about all arrays.", "anchors": ["src/runtime/array.rs:exec_array"]}
{"id": "C95", "title": "Arguments of functions on numbers and on times", "statement": "CEIL, CEILING, FLOOR, INT, ABS, SQRT, POW and MOD read only their one or two arguments and take 0 (for the divisor of MOD 1) for one that is missing or is no number; ROUND fails on a first argument that is no number and treats negative digits as none. YEAR, MONTH, DAY, DATE, DATEADD and DATEDIFF fail on arguments of other kinds or numbers, on times off the calendar and on unknown units. Percentiles and quartiles fail unless the last of at least two arguments is a number; IF fails with fewer than two.", "quantifier": "all argument lists of every kind and number, all expressions that give them, all contexts", "why_tests_cant": "Which argument lists are refused, and which are silently completed, is a statement about all lists of values.", "anchors": ["src/runtime/arithmetic.rs:exec_arithmetic", "src/runtime/datetime.rs:exec_datetime", "src/runtime/statistical.rs:exec_statistical", "src/runtime/logical.rs:exec_logical"]}
{"id": "C96", "title": "Arguments of methods", "statement": "The methods of texts (includes, contains, starts_with, ends_with, split, replace, substring, under all their names), of numbers (round, between) and of objects (has_key, has, dig) fail when an argument is missing or of another sort than documented, and with the error of their first argument when that fails. round(d) is ROUND with d digits for positive d. join fails on an array with anything but texts, numbers and truth values; a separator or an order of sort that is no text counts as none. The methods of objects fail on text that is not JSON.", "quantifier": "all receivers, all argument lists, all spellings of the method's name, all contexts", "why_tests_cant": "Which argument lists a method refuses is a statement about all lists of values.", "anchors": ["src/runtime/method_calls/string_methods.rs:exec_string_method", "src/runtime/method_calls/array_methods.rs:exec_array_method", "src/runtime/method_calls/mod.rs:exec_number_method", "src/runtime/method_calls/mod.rs:exec_json_method"]}
{"id": "C97", "title": "The statistics of the result cache, and what it forgets", "statement": "Since the cache was last empty, hits are the lookups that found a result, hits and misses together are all lookups, and the saved time is the sum of the times of the results found, whatever the server's threads do; unless somebody clears the cache, the lookups are one for each request to evaluate that was answered, and at most one for each that came. The page /health shows these numbers, the share of hits among the lookups, between 0 and 1 and rounded once, and the mean time of the requests processed. A result is forgotten once results were stored under 1000 other keys since its last use. Exception, proved: the reported evictions are the results replaced under their own key; results that are pushed out are not counted.", "quantifier": "all sequences of lookups, stores and clearings; all interleavings of requests", "why_tests_cant": "Counters and the order of use are facts about whole histories of any length, and the limit needs a thousand keys.", "anchors": ["src/bin/http_server/cache.rs:ExpressionCache::get", "src/bin/http_server/cache.rs:ExpressionCache::put", "src/bin/http_server/cache.rs:ExpressionCache::clear", "src/bin/http_server/eval.rs:handle_health"]}
{"id": "C98", "title": "Which functions there are", "statement": "has_builtin_function(name) is true exactly if some call of that name succeeds, special forms (FILTER, MAP, SUMIF, JQ and the like) and custom functions aside; a call of any other name fails with the message that the function is unknown. builtin_function_count is the number of names for which it is true. extract_numeric_values gives the numbers and amounts among the leaves of a value, from left to right. Exception, proved: the special forms work although has_builtin_function denies them.", "quantifier": "all names, all argument expressions, all contexts, all values", "why_tests_cant": "That every advertised function is implemented, and nothing else is, ranges over all names and argument lists.", "anchors": ["src/runtime/function_dispatch.rs:has_builtin_function", "src/runtime/function_dispatch.rs:builtin_function_count", "src/runtime/function_dispatch.rs:FunctionDispatch::execute", "src/runtime/jsonpath.rs:extract_numeric_values"]}

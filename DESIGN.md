# Formal model of zenbakiak/skillet in Rocq (Coq 8.16.1)

Source under study: `/repo` (Rust), read as text only; nothing there is built or run.
Model and proofs: `/verif/rocq/theories` (logical name `Verif`).

## How the files are organised

Four layers, in this order:

1. **Model** — one Gallina definition per Rust function, each with a comment citing file and lines.
2. **`Spec*.v`** — small, separate specifications: the words the theorems are written in.
3. **`*_proofs.v`** — lemmas.
4. **`P_*.v`** — the property theorems and nothing else.  Each is closed by `exact @lemma` and
   followed by `Print Assumptions`; beside each theorem an `Example …_nonvacuous` shows a concrete
   case that meets its hypotheses.

| model file | models |
|------|--------|
| `Base.v` | texts (`str` = list of Unicode scalar values), outcomes (`Ok`/`Err`/`Panic`), `HashMap`/`BTreeMap` as association lists, the `str` methods the crate uses |
| `F64.v`, `F64Text.v` | `f64` on the standard library's `SpecFloat` (pure Gallina IEEE-754, no axioms); shortest decimal printing, `{:.n}`, `str::parse::<f64>` |
| `Utf8.v`, `Lines.v` | UTF-8; `str::lines`, `split_whitespace`, `split_once`, `usize::from_str` |
| `Syntax.v` | `types.rs`, `ast.rs`, the token type |
| `Ext.v`, `Host.v`, `JsEngine.v` | oracles for what is outside the repository (see below); JavaScript values and texts as `js_plugin.rs` sees them |
| `Lexer.v`, `Parser.v` | `lexer.rs`, `parser.rs`, `lib.rs::parse` |
| `Json.v` | JSON text (serde_json 1.0.149, default features), the crate's four conversions, `jsonpath.rs` around the engine, derived `Debug` |
| `Struct.v` | what `#[derive(Deserialize)]` makes of request and answer structs: known fields once, others skipped by `ignore_value` |
| `Utils.v`, `Arith.v`, `Logic.v`, `Arrays.v`, `Strings.v`, `Dates.v`, `Financial.v`, `Stats.v`, `Cast.v` | `runtime/*.rs` |
| `Dispatch.v` | `runtime/json.rs`, `builtin_functions.rs`, `function_dispatch.rs` |
| `Registry.v` | `custom.rs` |
| `Methods.v` | `runtime/method_calls/*.rs` |
| `Core.v` | `runtime/evaluation/{core,higher_order,assignments}.rs` |
| `Evaluator.v`, `Api.v` | `runtime/evaluator.rs`, `lib.rs` |
| `FnCache.v`, `Cow.v`, `Pool.v`, `Traits.v` | `concurrent_registry.rs`, `memory_pool.rs`, `traits.rs` |
| `HttpRead.v`, `HttpAuth.v`, `HttpCache.v`, `Multipart.v`, `JsPlugin.v`, `HttpServer.v`, `HttpThreads.v` | `bin/http_server/*.rs`, `bin/sk_http_server.rs`, `js_plugin.rs` |
| `Pretty.v`, `Command.v`, `LineServer.v`, `Client.v`, `ClientBench.v`, `HttpBench.v` | pretty-printed JSON, `bin/sk.rs`, `bin/sk_server.rs`, `bin/sk_client.rs` and its benchmark mode, `bin/sk_http_bench.rs` |
| `ServerArgs.v` | the command lines of `bin/sk_server.rs` and `bin/sk_http_server.rs` |
| `Daemon.v`, `Accept.v` | starting in the background (`daemon.rs`, the same in `bin/sk_server.rs`); the accept loop, the thread pool and shutting down, of both servers |

| specification file | vocabulary |
|------|--------|
| `Spec.v` | evaluating a program text, `call`, `fails`, `num`, `agree` (environments), the example oracle |
| `Spec_syntax.v`, `Spec_grammar.v` | digits; which texts denote which trees, minimal parentheses |
| `Spec_text.v`, `Spec_numbers.v`, `Spec_dates.v`, `Spec_json.v` | cutting texts, real values of doubles and decimal texts, the Gregorian calendar by counting days, JSON documents |
| `Spec_stats.v`, `Spec_methods.v`, `Spec_functions.v` | ranks, medians, square roots; method calls and conversions; schedules |
| `Spec_registry.v`, `Spec_shared.v`, `Spec_traits.v` | histories of registry, cache, pool and extension operations |
| `Spec_http.v` | requests as lines and bodies, connections as pieces, runs of the server, what an answer says |
| `Spec_command.v`, `Spec_lines.v`, `Spec_client.v` | command lines and what a command leaves behind; lines sent to the server of JSON lines and the answers they may get; the client's command line and the request it stands for |
| `Spec_daemon.v`, `Spec_accept.v` | processes, descriptors and statuses; runs of the accept loop and the thread pool |
| `Spec_bench.v` | what a benchmark command line asks for, what the answers and times of a run amount to |
| `Spec_httpbench.v` | what the command line of the HTTP benchmark settles, what its tests ask for, what a test is to count |
| `Spec_args.v` | the options of the servers and the value asked for last |
| `Spec_eval.v` | what a request to evaluate asks for, and what it may be answered |
| `Spec_same.v` | two requests that ask for the same, two answers that say the same |
| `Spec_start.v` | the functions of the hooks directory in their order, what is said about loading them |
| `Spec_crash.v` | parts of an expression, the closed list of what can crash, values made of doubles |
| `Spec_cross.v`, `Spec_jscall.v` | UTF-16, how values enter JavaScript, what comes out and comes back; calls of loaded functions |
| `Spec_js.v`, `Spec_form.v` | annotations of a source, files and paths of the hooks directory, what a JSON answer has; forms as they are sent |

## Conventions

- **Panics** are the explicit outcome `Panic`: index and slice failures, `unwrap`, arithmetic
  overflow (the debug profile panics; release wraps).  No theorem hides one.
- **General recursion** takes fuel.  Running out is an explicit outcome, and it is proved never to
  happen with the fuel supplied (`C02_parse_total`).
- **Oracles.**  Behaviour outside the repository is a record passed as an argument (classes `Ext`
  and `Host`), never an axiom.  No law is assumed about any oracle, so theorems hold for all of
  them; the two exceptions are hypotheses written in the theorem: `unicode X` (no character folds
  to an ASCII letter except the known ones, needed to talk about header names) and `orders` (a
  `HashMap` iteration is a permutation of its entries).
- **Threads.**  A concurrent component is a transition system whose steps are single accesses to
  shared state; theorems quantify over every list of events, so over every interleaving and every
  history.  Assumed: atomic operations take effect in one global order, and no lock is poisoned.

## What is not modelled, and simplifications

Not modelled: the layout of the benchmark report of `bin/sk_client.rs`, printing, pauses and throughput of `bin/sk_http_bench.rs`,
`print_usage` texts, sockets (beyond connections as pieces of bytes), `method_calls_old.rs` (not compiled: no `mod`
line refers to it), the unused traits of `traits.rs` without code, running JavaScript (oracle
`h_js` from JavaScript values to a JavaScript value or a failure, with `http_get`/`http_post` inside it; the conversions on both sides are modelled, for arrays without getters; a source that runs for ever is not represented), the JSONPath engine (oracle `x_jsonpath`), libm (`powf`, `sin`, `cos`, `tan` are oracles).

Simplifications (each also stated at its definition):

- One NaN: NaN payloads and signs are not represented.
- An evaluation sees one instant of the clock, and one snapshot of the function registry.
- A user function's outcome is a function of its arguments.
- Array lengths stay below 2^31 where the code casts a length to `i32`, below 2^53 where it casts
  to `f64`, and capacities and memory are unbounded.
- Counters do not overflow, except the `as u64` conversions, which wrap.
- `f64::min`/`max` of zeros with different signs returns the first operand (Rust leaves it open).
- `sort_by` with a comparator that panics on NaN is modelled by its outcome: panic exactly when a
  sequence of two or more contains NaN.
- serde_json's error texts are an oracle.
- Files: a file system without links, contents are UTF-8, one file operation is one step.
- In C42, C44 and C79 the worker threads are unbounded in number: every run of the real pool is one
  of the model's runs.  The pool itself is the subject of C83, where jobs only start and end.

## Properties: what is modelled and how it is proved

`properties.jsonl` has the statements, `MANIFEST.json` the theorem names.

- C01 lexer on bytes; induction on the text, UTF-8 decode∘encode = id.
- C02 fuel-bounded parser, measure = remaining tokens; the supplied fuel suffices.
- C03 independent grammar and printer with minimal parentheses; induction on trees with a
  precedence-indexed invariant; the converse (only programs parse) by induction on parser runs.
- C04 the lexer commutes with whitespace runs between tokens.
- C05 a non-continuing token ends the program; a witness refutes full consumption.
- C06 the parser commutes with re-casing of names.
- C07, C08 induction on expressions (frame lemma for environments), for both evaluators.
- C09, C10 case analysis on the evaluator plus induction over argument lists. C09_text composes it with the grammar.
- C11–C14 induction over arrays; specification by relations over the list of elements.
- C15 induction over argument lists. C15_text composes it with the grammar.  C16 integer arithmetic on clamped bounds.
- C17 case analysis over pairs of values; text order = code point order = byte order.
- C18 induction over the sequence.  C19 case analysis.
- C20–C23 list inductions; sortedness and permutation for SORT.
- C24–C26 list and text inductions; uniqueness of the cut positions.
- C27, C28 folds over argument lists.
- C29 the civil-date algorithm is inverse to an independent calendar that counts days.
- C30 per-name case analysis over both dispatchers, complete over all names.
- C31 case analysis.  C32 JSON printer/parser round trip by induction on documents.
- C33, C34 finite-map lemmas.  C35–C37 state machine over histories of operations.
- C38–C40 state machines; invariants by induction over event lists; refinement to finite maps.
- C41 decision table of the router and of the header scan.  C42 invariant of the cache over all
  interleavings; `Debug` texts determine values, so keys determine requests.  C43 induction over the
  pieces in which a request arrives.  C44 counters under all interleavings.
- C45, C46 shortest-digits printing and correctly rounded reading.  C47–C49 exactness and rounding
  of `SpecFloat` operations against rational numbers.
- C50, C51 histories of operations.  C52 what each endpoint may change.  C54 framing of answers.
- C53 requests as an inductive relation on texts; the readers of queries and bodies decide it in both
  directions.  C55 with C42, whose answers are stated over the same relation.
- C56 form bodies as a printer; the splitting parser inverts it for boundaries that do not occur in
  the contents.  C57 annotations as a relation on lines; decided by the reader in both directions.
  C58 paths walked component by component; the scan of the directory finds exactly the files of a
  relation; upload, load and call composed end to end.
- C60 the registration loop against the list of functions found, up to the first one refused.
- C59, C61 one induction over expressions through all three evaluators, with an invariant (results have a
  property of values, panics occur only at a faulty part) that is instantiated twice: with no condition
  on values for C59, with `doubles` for C61.
- C62–C64 rank of a figure = split of a permutation; sorting lemmas.  C65, C66 the integer square
  root and the rounding position of `SFsqrt` give a double on the right side of every midpoint.
- C67–C73 `exec_method` dispatch by name (names in any letter case), then the lemmas of the
  corresponding functions or list inductions.
- C74–C76 case analysis and list inductions.  C77 the loops of IPMT and DB against inductively
  defined schedules; exact rational arithmetic for the interest-free case.
- C78 an inductive grammar of command lines and of argument values against the readers; induction on
  the argument list.  C79 the threads of the line server as a transition system; invariant over every
  list of events, with the numbers each connection took as ghost state; a measure gives progress.
- C80 the client's grammar as for C78; printing then reading a JSON document is the identity, which
  joins the client to the server's specification of C79.  C81 grammar of options against the option
  loops, in both directions.
- C82 descriptor tables as finite maps; case analysis over the failing call.  C83 invariant over every
  list of events with the started connections as ghost state; a measure gives termination.
- C84 induction over the loop of requests; monotonicity of rounding for the positions of percentiles.
- C85 an invariant of the threads' counters over all interleavings; the request texts are shown to be requests in the sense of C43 and C53 and the outcome follows from C42; that no error text can look like `"success":true` by induction over JSON escapes.
- C86 the skipper and the reader of JSON against the grammar of RFC 8259, by induction over nesting; the reader of structs field by field.
- C87 an inductive relation between texts and values, shown equal to the reader by induction over nesting in both directions; numbers by the uniqueness of correct rounding.
- C88 relations for entering and leaving JavaScript, shown equal to the conversions by induction over values; UTF-16 by induction over texts; calls through C60.
- C89 from C42 (what an answer may be) and C07 (only the variables of an expression matter), for any two permutations of the arguments.
- C90 from C78 (the command), C80 (the client), C34 (what variables a JSON object makes) and C07; a text is read by both programs, a description of a result is unique.
- C91 from C78 (the command), C45 (shortest digits) and C61 (results are doubles); the place of the point is compared with the bounds 1/10000 and 10^16 through the value of the digits; an induction on values.
- C92 by cases on the arguments of each function, and an induction on the text for the empty pattern.
- C93 by cases on the type and the value, with C45 (shortest digits), C91 (arrays as text) and a lemma on rounding to four decimals; JSON texts by induction on values.
- C94 by cases on the arguments; JOIN by induction on the elements.
- C95 by cases on the arguments, with the calendar of C29.
- C96 by cases on the method and on its arguments.
- C97 by induction on the operations on the cache, and on the run for the server.
- C98 by a call that succeeds for each of the 80 names, and by cases on the dispatch.

Properties the code does not have are kept as theorems named `…_refuted`, each with a concrete run:
C05 (all input is read), C08 (SUMIF's own parameter), C10 (SUMIF masks failures), C16 (index
`isize::MIN`), C25 (split after join in general), C29 (month arithmetic, amounts beyond `i32`), C31
(integer cast idempotent beyond 2^63), C37 (reserved names, lambdas of built-ins), C38 (the cache
sees unregistration), C41 (a token line inside the body), C42 (key collision, variables of a cached
entry, results after a reload), C43 (pipelined requests), C53 (`+` as a space, texts such as `Nan`), C56 (contents of a field, quoted boundaries), C57 (a lone quotation
mark), C58 (paths outside the directory, deleted functions, one bad function, a file `.js`), C59 (evaluation never crashes), C60 (loaded functions work in every expression, one bad function), C63 (documented names with a dot cannot be
written), C64 (a percentile lies between minimum and maximum, one that is no number is refused), C65 (equal figures have variance 0), C67 (parity
beyond 2^63, sign of amounts), C68 (null to JSON), C69–C71 (methods agree with the functions of the
same name), C73 (custom functions in method arguments), C77 (IPMT after
the first period, DB in period 0), C78 (an argument crashes the command, arrays do not nest), C79 (every line gets an answer),
C80 (the client and `sk` read variables alike), C81 (0 threads crash `sk_server`), C82 (the
status of the command, standard input of a daemon), C83 (`sk_http_server` finishes what it let in, no connection holds up others), C92 (SUBSTRING checks its third argument), C93 (a cast to Json gives JSON), C95 (functions on numbers take amounts), C96 (the method round and the function ROUND agree on negative digits), C97 (evictions count what is pushed out), C98 (has_builtin_function knows the special forms), C84 (the benchmark's status tells whether evaluations succeeded), C85 (`-w 0`, `-c`, the size of the warm-up, expressions outside ASCII), C88 (an argument that is returned keeps its type), C89 (arguments whose names become the same; the text of all arguments), C90 (arrays that are not JSON, `:arguments`). Found but not stated as a theorem: the HTTP benchmark's JSON bodies escape nothing and a `{}` in them becomes the host's name; none of its own expressions has such characters.

## Trusted base

- Coq's kernel (8.16.1), including its virtual machine (`vm_compute` is used for examples and for
  finite case checks; `coqchk` re-checks everything without it).
- `Print Assumptions` prints "Closed under the global context" for **every** theorem in `P_*.v`: no
  axiom is used, not even the standard library's.
- `coqchk -o` over the whole development lists seven axioms of the standard library module
  `Coq.ssr.ssrunder` (`Under_rel`, `Over_rel`, …).  They come with loading ssreflect through the
  standard library and no theorem depends on them.
- The correspondence between the Rust text and the Gallina definitions, documented definition by
  definition.  External crates (serde_json, chrono, lru, urlencoding, Rust's std) are modelled from
  their documented behaviour as far as the repository uses them.

## Testing the theorems

`seeded/LOG.jsonl` records edits of the model in a scratch copy, one realistic bug each, and the
theorems that stop holding.  In the scratch copy broken lemmas are skipped one by one and
`Print Assumptions` then tells which property theorems depend on a broken one.

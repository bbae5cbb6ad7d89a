# Formal model of mercari/grpc-federation in Rocq

## Method

* The model is hand written Gallina, one directory per area under `rocq/theories/<Area>/`:
  `Model.v` (definitions only; each definition cites the file and lines it models),
  `Spec.v` (small, independent statement vocabulary), `Proofs.v` (lemmas) and
  `Theorems.v` (the property theorems, each `exact lemma.` plus `Print Assumptions`
  and an `Example` showing that the hypotheses can be met).
* Concurrency is modelled as a labelled small step relation; a schedule is any
  sequence of steps. External calls (CEL evaluation, gRPC calls, user callbacks,
  clock) are universally quantified functions or nondeterministic step labels.
* Where the faithful model violates the property we prove `..._refuted` with a
  concrete witness, and prove the strongest true version as `..._partial` (or a
  separate theorem) next to it.

## Plan per property

| id | what is modelled | how it is proved |
|----|------------------|------------------|
| C01 | the nine functions of cast.go over Z with explicit two's-complement conversion | case analysis + lia on ranges |
| C02 | kind table, castValidationNumberMap, template branch choice, Go conversions | finite case analysis on kinds x unbounded value; refutation for sint/fixed kinds |
| C03 | dependency graph -> group tree -> small step execution with LocalValue.do | invariant over every schedule |
| C04 | setupVariableDefinitionSet, uniqueChildren, group creation | induction over graph; refutation for self references |
| C05 | the two edge builders | induction over definition list |
| C06 | CreateAllMessageDependencyGraph and its DFS | DFS soundness/completeness; refutation for rootless cycles |
| C07 | LocalValue.do with singleflight as state machine over any number of callers | invariant; refutation of at-most-once |
| C08 | evalDef/evalDefMap | case analysis against a relational spec |
| C09 | evalMap | induction over the source list |
| C10 | WithRetry + cenkalti/backoff Retry loop + WithMaxRetries, template | induction over attempts; refutation for max_retries 0 |
| C11 | WithTimeout as a state machine | invariant over schedules |
| C12, C13 | generated error handler as interpreter of rules | induction over rules; refutation of C13 |
| C14 | shared `error` variable with two callers | refutation by schedule; proof for a single caller |
| C15 | SetGRPCError | induction over details |
| C16 | generated validation + evalDef | case analysis |
| C17 | CEL expression trees, resolver with id supply | structural induction |
| C18 | strings.Replace of `$` and a tokenizer of string literals | induction; refutation |
| C19 | plugin codecs | structural induction; refutation for 32 bit kinds |
| C20, C21 | CELPluginInstance as state machine | invariants; refutations |
| C22 | oneof template | induction over fields |
| C23 | ToEnum tables and castEnum switch | induction over values |
| C24 | struct/list/map cast generation + template semantics | induction over types/values |
| C25 | list.go | sortedness/permutation/stability proofs |
| C26 | lookupPackage etc. | induction over strings/lists |
| C27 | name validation, auto names | induction; refutation of clash freedom |
| C28 | resolveAutoBindFields | induction |
| C29 | ReferenceNames over an expression AST | induction; refutation for omitted positions |
| C30 | Imports | induction; refutation with three packages |
| C31 | CELCacheIndex counter + cache map | invariant |
| C32 | template scoping as generated-code AST | structural induction |
| C33 | generator build cache state machine | invariant; refutation |
| C34 | watcher state machine | refutation of no-lost-update |
| C35 | evalAllCodeGenerationPlugin with buffer semantics | refutation + single plugin proof |
| C36 | option parsing | round trip over strings |
| C37 | env intersection | induction over services |
| C38 | isDifferentType & field validation | structural induction; refutation on repeated |
| C39 | message argument collection | induction over callers |
| C40 | encoder/decoder over an object graph with ids | induction (partial: subset of entity kinds) |
| C41 | RecoverError text handling, errgroup recovery | induction over lines |
| C42 | name mangling | refutation by collision, injectivity under restrictions |
| C43 | import resolution over graphs | fuel/visited-set induction |
| C44 | generated constructor checks | case analysis |
| C45 | logger reference in context | invariant over operations |
| C46 | SetGRPCError on every standard detail type of errdetails | case analysis over the details, induction over the list |
| C47 | ValidatePlugin and the check of exported functions | induction over functions |
| C48 | field assignment templates over the rules of a field | case analysis over rules, induction over fields |
| C49 | which conversion functions are called and which are generated | induction over types; refutation |
| C50 | evalCodeGenerationPlugin, checksum of modules | case analysis; hash is an arbitrary function |
| C51 | setWatchPathRecursive over a file tree | induction over the tree; refutation for dot directories |
| C52 | UseServices, ServiceDependencies | induction over definitions; refutation for variables |
| C53 | Service.Messages | reachability in the dependency graph; refutation |
| C54 | CustomResolvers | reachability; refutation |
| C55 | New…()/Cleanup…() as a state machine over the started plugins | induction over steps; refutation |
| C56 | the macros of BindFunction and BindMemberFunction, the lookup of cel-go, the bindings of the library in order | induction over expressions against a relation of meaning; tables by computation |
| C57 | the environments of the generator and of the service side by side (Bind) | induction over the meaning of the expression, carried from one environment to the other |
| C58 | file trees, nested messages, the maps and the shared cache (Enums) | induction over the tree with an invariant of the cache; specification by reachability |
| C59 | both lists of accessors (Enums) | from C58, by cases over accessors and prefixes |
| C60 | the check of attributes, the generated literal, the accessors with int32 conversion (Enums/Access) | counting argument over values; lookup lemmas; counterexamples by computation |
| C61 | resultFiles and the variables for attributes (Enums/Outputs) | loop invariant: what is collected is whole packages |
| C62 | select, its check, its type, the parameters and the code of the setter (Enums/Select) | induction over the nesting of calls against a relation of selection |
| C63 | path/filepath on elements, the three output modes and the loops of both generators (Paths/Model) | places as lists of names that the elements of a path walk; induction over elements, against where each mode should put a file |
| C64 | the paths of all files of one answer | injectivity of joined names; exact condition for a shared path |
| C65 | RelativePathFromImportPaths with filepath.Abs and Rel (Paths/Compiled) | places from the working directory; induction over the import paths |
| C66 | EnvVar.Tag and Name, %q and StructTag.Get, the generated struct, envconfig.Process, reading from an expression | round trip of quoting through the tag; exact equivalence with an inductive specification of the options; refuted for lower-case alternates |
| C67 | resolveEnvType, NewMapType, EnvVar.Type | induction on declarations; exact conditions; refuted for missing keys, nested lists and lists as keys |
| C68 | LogValues and its visitors over a graph of messages, the types and expressions of the functions, the argument structs and the calls (Logs) | invariant: every function made belongs to a type that occurs, and what it calls is made by the end; fuel bounded by the messages not yet visited; typing rules for the generated expressions |
| C69 | the resolution of service variables, the struct and initServiceVariables, over any type checker and evaluation (Svcvars) | induction over the list: acceptance equals an inductive relation; simulation of the start by a big-step relation over the declared list |
| C70 | the function generated for a message: definitions, the assignments to the argument struct, custom resolvers, fields and oneofs, over any evaluation (Reqs) | simulation of the generated function by a specification in which arguments never change; invariant: the values agree outside the oneofs already passed |
| C71 | the templates as lists of code, raw and quoted literals and comments, the formatting of options in comments with strconv.Quote; as specification a reader of Go literals and comments (Texts) | composition of the reader over pieces; an automaton for the end of a comment, run over the whole layout of a definition |
| C72 | time values and locations, their conversion from and to Go's times, and the functions that give times (Times); Go's package time with a time zone database, a local zone and a calendar as parameters | simulation by Go's times for locations with one zone; an invariant on instants for all locations; exact conditions for one conversion |
| C73 | the functions that append to bytes and strings, on Go slices with spare capacity in a heap of arrays (Bytes, Base/Slice); as specification values as lists | invariant over calls: slices that were not appended to are the longest and the only such ones of their array; computation for two calls |
| C74 | all functions nodeInfoBy... from a location to a node of the syntax tree (Locate); as specification the path of a location in the schema of the options and the value at a path | mutual induction over locations; the specification puts statements together, the model reads the first |
| C75 | the builders as pointers to trees in a heap and functions that find their part; Clone with the parts it forgets; lazy builders; the builders resolveMessage makes (Builders); as specification builders as values and locations as maps from paths to texts | invariant over all programs of builder calls; induction over message definitions |
| C76 | the phase that types all expressions of a message, with the checker as an oracle, fromCELType and ToCELType, and the map of variables of the phase before (Typing); as specification one set of typing rules with what places ask for as parameters | mutual induction over definitions, handlers and details; monotonicity of the rules |
| C77 | the validator with its cache of files, its two stable sorts, its printer and its settings; the loop and the exit status of the linter; the generator's decision; the language server's diagnostics (Diag); as specification the list of problems, lines of a text as an inductive relation, and what an output must say about a problem | induction over the lists of problems with an invariant of the cache; induction over sorts; induction over the arguments |
| C78 | the server as a state machine: the editor's events, goroutines of thirteen steps each, the shared map of texts and the import paths of the validator and the compiler that are reset and appended to without a lock (Sync); as specification the text after events as an inductive relation and the diagnosis as a function | invariants over all event sequences; termination by a measure; schedules that refute the full statement, for all parameters |
| C79 | files as nested declarations and services, the search for the type, the method, the field's type and the import, the walk over the syntax tree, the dispatch on the location (Goto); as specification an inductive relation of paths to declarations and the rule which declaration a name refers to | induction on nested declarations and on the list of files; a project that refutes the full statements |
| C80 | the candidates for every place (variables, arguments, types, requests, methods, messages) and the list with its edits (Complete); as specification which variables are usable after the first k definitions, which types are accepted, and the effect of an edit on a line | exact characterisations by induction on lists; a message that refutes the full statements |
| C81 | the search for called methods, the table of constants, the name used by error handlers (Consts), over the schemas of Deps and the Go names of Ident; as specification the calls of the messages of a service and the gRPC path | reachability by induction; the map as a list with distinct keys; four schemas as refutations |
| C82 | every find...ByPos function with its early returns and the part of the shared context that survives a failed search (Pos), over values, locations and paths of Locate; as specification the nodes a location names | every hit has a node under the cursor (function by function, then by induction on declarations); a text that nothing before hides is hit; two files as refutations, the failing shapes in general |
| C83 | the two searches for package names over rules, definitions, errors, details, types and syntax trees, and the choice of the warning (Usage), on the package lookup of Lookup; as specification the places of a file with the spots passed on the way to them, and the names written in an expression | the names that are found are those written outside the spots (induction on plain expressions, mutual induction on definitions and errors, induction on messages); a file for each of the 18 spots; refutations |
| C84 | the rule of a method, the argument struct of its response, what the compiler checks of it, and the body of the generated method (Entry), over arbitrary resolvers, casts and limits; as specification the outcome of a method as an inductive relation | permutations for the order of the map; case analysis of the rules; refutations for each of the excluded cases |
| C85 | expandVal on nested values, the text of keys, the four log functions and add, as steps on the attributes of a context (Loglib); as specification the places of a value and of an entry, as inductive relations | what is read at a place is what is found there (induction on the place, insertion into the map by induction on its entries); reordering by induction on the relation; sequences of calls by induction; refutations |
| C86 | messageToDescriptor with its entries of maps, toMapEntryName, resolveEnvType and the naming of the entries of environment variables (Descr); as specification protobuf's rules for a message and for the name of an entry (the parts between underscores, each with a capital) | the computed name by induction on the string; the fields by induction on the list and on the type; validity as an equivalence, both directions; refutations from it |
| C87 | the functions of grpc.federation.rand as steps on a heap of sources, with those of math/rand they call (Rand); the numbers of a source are any function of its seed and of how many were taken | ranges and fairness by arithmetic and induction on the numbers drawn; independence of other sources by induction on the run (each call changes at most its own source); refutations by computation |

## Trusted base

* The kernel of Coq 8.16.1 (the standard library is the only library used; no mathcomp,
  std++, Iris or plugin).
* What `Print Assumptions` lists: every theorem named in `MANIFEST.json` is followed by
  `Print Assumptions` in its `Theorems.v`, and each answers "Closed under the global
  context". No axiom of the standard library is used either. (vcheck's `library_axioms`
  are constants of the module `Coq.ssr.ssrunder`, which Coq itself loads; no theorem
  depends on them.) There is no `Axiom`, `Parameter`, `Admitted`, section-less `Variable`
  or `Hypothesis`, functor, module type or switched-off check in `rocq/theories`.
* The translation by hand from Go and from the text templates to Gallina. Each definition
  cites the lines it models, and each `Model.v` states its simplifications at the top.
  Nothing checks this translation mechanically: the code could not be built or run here.
* The models of code outside the repository, where properties need it: conversion of
  integers in Go, `errgroup`, `singleflight`, `context.WithTimeout`, `time.Timer`,
  `cenkalti/backoff` (Retry with WithMaxRetries), `status` of grpc-go 1.65,
  `fsnotify` (as a source of arbitrary events), `strs.GoCamelCase` and the sorting
  functions of Go. Each is described where it is modelled.
* Functions from outside which the theorems quantify over, as section variables or
  arguments: evaluation of CEL expressions, calls of gRPC methods, custom resolvers,
  error handlers, plugin functions, the clock, file system events, and the order in which
  Go iterates over a map.

## Modelled and not modelled

| area | properties | modelled | not modelled |
|------|-----------|----------|--------------|
| Cast | C01, C02 | grpc/federation/cast.go, types/types.go, choice of numeric casts in cast.go.tmpl | floats as numbers (a cast to float is opaque) |
| Graph, Plan | C04, C05 | resolver/graph.go:224-448: edges, cycle check, groups | error positions |
| MsgGraph | C06 | resolver/graph.go:11-222, 450-490 | error positions |
| Exec | C03, C07 | generated evalMessageDef/evalDefGroup/evalDefSet, LocalValue.do, errgroup, singleflight, under any schedule | cancellation in the middle of an evaluation, tracing |
| Def | C08, C09 | cel.go:482-690 | locks (each function is one step; Exec has the schedule) |
| Call | C10, C11 | WithRetry, WithTimeout, the call expression's template | real time (the clock is an arbitrary function) |
| Err | C12-C16, C41, C46 | error.go, the error handler and validation templates, grpc status | text of messages beyond what the rules see |
| Cel | C17, C18, C25 | null comparison rewriting, `$` replacement, cel/list.go | the CEL type checker and interpreter |
| Plugin | C19-C21, C47 | cel/plugin.go: codec, instances, lifecycle, validation | WebAssembly execution, the byte level of the pipes below a line |
| Conv | C22-C24, C48, C49 | CastField and cast.go.tmpl, oneof and field assignment templates | formatting of Go code |
| Schema | C28, C38 | isDifferentType and the checks on assignments, autobind | parsing of options |
| Lookup | C26 | name resolution of messages, enums, methods | resolution of extensions |
| Names, Refs | C27, C29 | names of variables, ReferenceNames | |
| Imports | C30 | aliases of imported packages | |
| Cache | C31 | CELCacheIndex, CELCacheMap | |
| Scope | C32 | contexts and goroutine groups of generated code | other statements |
| Regen, Watch | C33, C34, C51 | build cache, event loop, watcher | failing writes |
| Options | C35, C36, C50 | option parsing, running code generation plugins | downloading of plugins |
| Shared | C37 | env and service variables of shared messages | |
| Args | C39 | argument messages | CEL evaluation of arguments |
| Codec | C40 | generator/encode.go, decode.go, all entity kinds | protobuf wire format |
| Ident | C42 | names of Go identifiers | non-ASCII names |
| Bind | C56, C57 | macros and lookup of CEL calls, names of the library | types of arguments, what CEL's macros do |
| Paths | C63-C65 | output paths of generated files, names of compiled files | symbolic links, other separators than /, letters outside ASCII |
| Env | C66, C67 | environment variables: tags, generated struct, loading, types (generator/code_generator.go, resolver/resolver.go, templates/server.go.tmpl) | envconfig from its documentation; conversion of texts is a parameter; bytes outside ASCII are taken as printable; variables of message types |
| Logs | C68 | log functions of a service (generator/code_generator.go:1232-1559, templates/server.go.tmpl) | Go's type checker is a small set of typing rules; arguments that are members of a oneof; sorting of the functions |
| Svcvars | C69 | service variables (resolver/resolver.go:2095-2302, templates/server.go.tmpl:409-453, grpc/federation/cel.go:508-594) | CEL itself: type checker and evaluation are parameters; switch expressions; the CEL cache |
| Reqs | C70 | the resolver function of a message (templates/server.go.tmpl:537-616, 683-773, generator/code_generator.go:2377-2400) | definitions in error rules and validations; fields bound automatically; concurrency of definitions (C03, C07) |
| Texts | C71 | texts in literals and comments of the generated code (templates/eval.go.tmpl:1-115, 247-285, server.go.tmpl:32-42, 766-781, error_handler.go.tmpl:261-303, resolver/format.go:9-440) | the fixed text of the templates beyond what surrounds a text; formatting by go/format; characters of more than one byte in strconv.Quote; the reader knows no runes and no numeric escapes |
| Times | C72 | time values and locations of the CEL time library (grpc/federation/cel/time.go:20-36, 63-82, 212-227, 380-416, 430-565, 697-712, 737-761, 798-818, 861-893) | parsing and formatting; durations; functions that give numbers and texts, which depend only on what the theorems compare; bounds on instants; LoadLocation and Date are Go's and given as specified in its documentation |
| Bytes | C73 | functions that append to bytes and strings (grpc/federation/cel/strings.go:401-531, time.go:582-612) | what strconv and time append, which is given in pieces; other functions, which do not write to their arguments; data races between concurrent calls |
| Locate | C74 | from a location to the node of the syntax tree (source/file.go:497-513, 929-2020) and the locations the builders make (source/location_builder.go, location.go) | the parser; the comparison of file names; locations with several parts at one level, which no builder makes; from a position to a location (file.go:201-880) |
| Builders | C75 | source/location_builder.go (all With… methods by their three shapes), source/clone.go, and the builders that resolveMessage, resolveEnum, resolveOneof and resolveFields make (resolver/resolver.go:1129-1257, 3272-3285) | one tree type for all structs; the caches of the resolver; the errors of fields |
| Typing | C76 | resolver/resolver.go:3841-4398, 4425-4454, 4780-4885, 2426-2437, 2482-2515, resolver/cel.go:87-129, resolver/context.go:78-88 | the CEL checker (an oracle); the order and the locations of errors; types of request fields; names of messages, enums and methods; a map without an expression (nil pointer) |
| Diag | C77 | validator/validator.go (all), resolver/error.go:35-54, cmd/grpc-federation-linter/main.go:24-60, lsp/server/validator.go:15-53, generator/generator.go:641-650 | the compiler, the resolver, the file system, the parser and the search for positions are given functions; offsets |
| Sync | C78 | lsp/server/text_document_sync.go, lsp/server/util.go, lsp/server/validator.go:15-53, DidOpen and DidClose of lsp/server/handler.go, and the shared state in validator/validator.go:18-100 and compiler/compiler.go:149-202 | memory is sequentially consistent with statements as steps, slices are values; the parser, compiler, resolver and reporter are given functions; the cache of files of the validator; files on disk do not change |
| Goto | C79 | lsp/server/definition.go:60-473 | paths of the file system are given functions; a place is the path of names of a declaration; map entries; the conversion of positions (27-58) |
| Complete | C80 | resolver/candidates.go, lsp/server/completion.go:17-71 | maps are lists in any order; a line of text is bytes without tabs (columns); the run of compiler and resolver before; strconv.Unquote is given |
| Consts | C81 | generator/code_generator.go:1561-1637, 3075-3082, constants in server.go.tmpl and error_handler.go.tmpl | every call has a method (the resolver reports others); called methods are numbers into a table of names |
| Pos | C82 | source/file.go:114-936 (FindLocationByPos and all it calls) | a Go location with several parts is the list of its chains; extensions, groups and reserved ranges are left out; nodes are numbers with given spans |
| Usage | C83 | resolver/resolver.go:407-714 (validateFileImport and the lookups of package names), grpc/federation/cel/conv.go:5-64 | references stand for packages and are resolved; expressions are syntax trees after macro expansion; the type of an argument counts as a use of its package, as in the code; a variable with the name of a package counts as the package |
| Entry | C84 | resolver/resolver.go:768-780, 2304-2363, 3602-3627, 5153-5160, resolver/method.go:3-8, generator/code_generator.go:1653-1707, generator/templates/server.go.tmpl:457-533 | messages are numbers; the arguments of messages that others use are given; tracing, panics, context and plugins are left out; of the Go compiler only the fields of the literal and the returned type |
| Loglib | C85 | grpc/federation/cel/log.go:39-92, 102-176, grpc/federation/log/context.go:23-33, 61-71 | values that are neither maps nor lists are numbers; the entries of a map are listed in the order of a run; the logger writes every level; one context |
| Descr | C86 | resolver/resolver.go:1993-2011, 2031-2081, 4925-4941, 4999-5061, resolver/message.go:22-30 | names are ASCII; kinds are numbers, a duration is one of them; enums left out; full names of messages are given; of protobuf's rules those on names, numbers and entries of maps |
| Rand | C87 | grpc/federation/cel/rand.go:20-64, 90-228 (without the floating point functions) | the numbers of a source are a parameter of each theorem; Int31n, Int63n and Intn of Go's math/rand are modelled, with fuel for their loop; a panic is a result |
| Enums | C58-C62 | enums and plugins of a file, accessors, attributes, generated files, enum selectors | the rest of the generated code, byte order marks in texts |
| Files | C43 | import resolution | parsing of a single proto file |
| Construct, Deps | C44, C52-C55 | New…() and Cleanup…(), dependencies of services | tracer, logger, CEL environment |
| Log | C45 | logger reference in the context | handlers of slog |

Not modelled at all: the language server (lsp/, cmd/grpc-federation-language-server), the
linter and the proto formatter, the CEL standard library extensions other than lists
(cel/time.go, strings.go, math, rand, url, uuid, metadata, log), validator/ (protovalidate
rules), the demo and the examples, tracing. Their functions are thin wrappers around
libraries, or are about presentation.

## Findings

What the models show the code to do against a property; for each there is a theorem with
the suffix `_refuted` (or the named theorem) in the area of the property.

1. C02: narrowing casts from or to sint, fixed, sfixed and enum kinds truncate silently.
2. C04: a definition that refers to itself is accepted, and is never evaluated.
3. C06: a cycle of messages that no root reaches is not reported.
4. C07: LocalValue.do may evaluate a definition twice when a caller finds no cached value,
   and enters singleflight after the first flight has ended.
5. C10: `max_retries: 0` retries without limit; the pause between attempts is not
   interrupted by cancellation.
6. C11: WithTimeout answers DeadlineExceeded also when the parent was cancelled.
7. C13: an error that is no gRPC status, with a rule without a code, is swallowed; so is
   one given code OK. A failure of `ignore_and_response` is only logged. A custom error
   handler is called with a nil error when the error was ignored.
8. C14: the variable `error` is shared by concurrent definitions: a rule may see the
   error of another call.
9. C16: a failed validation with code OK passes. A validation without code is a nil
   dereference.
10. C17: comparison with null inside keys of map literals is not rewritten; within macros
   the rewriting makes the expression fail to unparse.
11. C18: `$` is replaced within string literals too.
12. C19: plugin codec: 32 bit integers are truncated silently; values of Duration,
   Timestamp and similar types fail; an error with an empty text becomes a zero value; a nil
   message arrives as an empty one; lists of lists collapse.
13. C20, C21: garbage collection of a plugin after Close panics, a second Close panics,
   and a call whose plugin dies hangs.
14. C22: the check for a default is per message, not per oneof.
15. C23: enum conversion has duplicate cases in a switch for aliased numbers.
16. C25: NaN keys break the order of sort; `first` evaluates its predicate on all
   elements; the sort macro evaluates its target twice.
17. C26, C27, C28: ambiguous lookups by suffix; generated names `_def0` may clash.
18. C29: names used in retry conditions, conditions of request arguments, messages of
   errors, `ignore_and_response` and enums in maps do not count as dependencies; an
   iterator called like its source drops the dependency.
19. C30: import aliases may be equal for three packages, or be those of the defaults.
20. C32: `eg`/`ctx1` are declared twice, or a declared definition is unused.
21. C33: after a failed build the cache is lost; importers are not built again; a created file
   duplicates a cache entry; in watch mode nothing is written before the first event.
22. C34: changes made while the generator works are lost.
23. C35: code generation plugins after the first get an empty request.
24. C36: values with `,`, `=` or `:` are rejected.
25. C37: different enums, and messages of equal structure, count as one type, and the type
   seen depends on map order; recursive message types never end.
26. C38: repeated and singular types are not told apart; number kinds are mixed.
27. C39: see the note in MANIFEST.json; an argument without value panics.
28. C40: the request loses or merges several entities (list in Codec/Theorems.v).
29. C41: the value of a panic is cut at its first line.
30. C42: snake_case and camelCase of one name, packages and nested messages, nested
   messages and fields, overloads, and plugin function ids collide.
31. C43: the list of files is not in order of dependencies; an import named twice is compiled
   twice.
32. C45: attributes are overwritten or duplicated.
33. C48, C49: see Conv/Theorems.v.
34. C51: directories that start with a dot are not watched.
35. C52, C53, C54: clients, resolvers and messages used only by service variables, by nested
   error rules or in oneof rules are missing from the service.
36. C55: New…() leaks plugins it has started when a later step fails.
37. C56: the macro of the last function or method bound under a name wins.  With the whole
   library `t.add(d)` of times and `u.parse(ref)` of URLs do not compile, nor do CEL's own
   `contains`, `replace`, `split`, `trim`, `format` and `join`; a plugin function takes away
   methods and enum accessors with its last name; no bound function can be called by its bare
   name in its own package; a plugin function named like a macro of CEL with one argument less
   is mistaken for the macro after null comparisons were rewritten.
38. C57: the generator declares functions of plugins without the macros and the context, and
   checks expressions in the package of the message, not of the service.  So a bare call of a
   plugin function, or a method with the last name of one, is accepted and fails at run time,
   the same expression may call another plugin's function, and plugin functions with a last
   name of the library (`shop.parse(x)`) are never accepted.
39. C58: if a file and one of its imports have a plugin of the same name, that of the import is
   taken.
40. C59: attr is accepted for enums without attributes, and accessors of enums of google (but
   google.rpc.Code) and of grpc.federation are accepted, although the service has none of them.
41. C60: the check that an attribute is on every value counts occurrences.  An attribute twice on
   one value makes up for a value without it, and if that value has no option the generator
   crashes.  With two names for one number (allow_alias), or a backquote in an attribute, the
   generated Go is invalid; a carriage return in an attribute is lost; numbers beyond int32 given
   to name or attr are taken for others.
42. C61: a service uses the variable with the attributes of every enum it can reach, but the file
   that declares it is generated only if its package has a service or a plugin; otherwise the
   generated Go does not compile.
43. C62: the function generated for a selector nested in the last argument of select has no
   result, so the generated Go does not compile (eval.go.tmpl:372).  An `enum` definition does
   not check the enums of a selector for aliases.  The check of arguments lets any opaque type of
   one number pass, for example optional numbers, on which select panics.  The example of
   docs/cel/enum.md:38 is refused.  Selectors compare equal whatever they hold.
44. C63: the stand-alone generator with paths=source_relative writes every file it makes for a proto
    file into the directory of that proto file, generator.go:610: a plugin or service imported from
    another directory is written twice, once beside its own proto file and once into the directory,
    and Go package, of the importer. The protoc plugin is right. The module prefix is cut as text:
    module=example.com/foo sends example.com/foobar/x to bar/x, and an import path without the
    prefix is not refused, as protoc-gen-go does.
45. C64: User.proto and user.proto, or two files of one name in two directories with one Go package,
    share the path of their generated file; user_grpc_federation.proto makes protoc-gen-go write the
    path generated for user.proto.
46. C65: with the import paths proto and proto2, in this order, proto2/a.proto is compiled under the
    name ../proto2/a.proto, since strings.HasPrefix does not look for the end of an element
    (compiler.go:132); an absolute import path with .. in it is never found.
47. (C66) The alternate name of an environment variable is looked up in upper case by envconfig, so `alternate: "http_proxy"` is never found. Two variables whose Go names agree (`user_id`, `userId`) and a backquote in a default are accepted and make Go code that does not compile.
48. (C67) `type { map { key { kind: STRING } } }` crashes the generator with a nil dereference. A list of lists becomes a list, a list of maps becomes a map, and a list as the key of a map is accepted and makes invalid Go.
49. (C68) The log functions are keyed by name, and maps made in expressions all have the name `.`: with two message arguments of types `map<string,int64>` and `map<string,string>` the second is passed to the function of the first, and the code does not compile. The same happens to an enum with `allow_alias` (a case twice), a map whose values are lists of bytes (`string(value)`), a nested message with a name in lower case (its argument struct and log function get two names), a message `XArgument` beside a message `X` with arguments, and a variable with the name of an argument but another type (it takes over the field of the struct). An argument that is null ends the generator with log.Fatalf.
50. (C69) A service variable with an `if` that checks is dropped without an error (resolver.go: `return nil` stands outside the test for bool): nothing sets it, and a later use of it is refused. A second validation is refused because the empty name counts as a duplicate. A validation with a name is declared for the variables after it but never set, so a service that reads it does not start. A list of booleans is accepted as a condition, and the start fails. A variable without an expression ends the generator with a nil dereference. Two names with the same Go name (`a_b`, `aB`) give a struct with a field twice.
51. (C70) Before its fields are bound, a message assigns every used variable to the field of its argument struct with the variable's Go name, for the custom resolver, but also when there is none. `$` reads the same struct. So with an argument `id` and a variable `id` (or `userId` and `user_id`) of the same type, `$.id` is the argument in definitions and the variable in fields and for custom resolvers. A variable of a oneof has no value at that moment: the argument becomes its zero value.
52. (C71) Expressions, names, messages and attributes are written between backticks without escaping, and definitions are repeated in a comment. A backtick in an expression (a valid character of a CEL string) ends the literal and the rest becomes Go code: a proto file can add statements to the service, or break the build. A carriage return disappears, so the service evaluates another string than the one that was checked. `*/` in a definition, as in `req.accept == '*/*'`, ends the comment and the generated code does not compile. Arguments and fields are safe in comments, because they are quoted and stay on one line.
53. (C72) A Time value keeps the abbreviation and the offset of its zone at its instant, not its location. After any function the time is in a fixed zone: `addDate` across a change of the clocks is an hour off, and `isDST` is false in summer. With offset zero the abbreviation is loaded as if it were the name of a location, so that every function fails on a time in the Azores in summer (`+00`), in `fixedZone("X", 0)`, or parsed with an unknown abbreviation; and a name that happens to be one (`WET`, `EST`) brings in other rules. `loadLocationFromTZData` drops the data it has read and keeps the name.
54. (C73) `strings.appendInt` and the other append functions, and `appendFormat` of times, append into the array of their argument if it is of type bytes. If the array has spare capacity, two calls on the same bytes share it and the second overwrites the result of the first: with `b` of one byte and spare capacity, `x = appendInt(b, 1, 10)` followed by `y = appendInt(b, 2, 10)` leaves both at `2`. Definitions run concurrently, so this is also a data race on bytes of the request.
55. (C74) Several kinds of errors are shown at a wrong place or without a position. A string written as two literals (`by: "a" "b"`) has no position. Only the first statement of an option is read, so that for `option (grpc.federation.message).def = {...}` written twice an error in the second is shown at the first. The second `def {...}` of a oneof field has no position. The location of a method, its request or its response never has one. The name of an argument, the code and message of an error, the alias of a field, the type of an env variable and the arguments of the message of an error detail are shown at the enclosing literal. An import of the file option without brackets has no position. The name of a validation whose error is written first is a nil pointer dereference (no error of the resolver uses this location).
56. (C75) A builder made with ToLazyMessageBuilder sets its message anew at every call, so that a second call in a row finds nil: resolving a message that has not been resolved before with such a builder panics if the message has a nested message with anything in it, for example the entry of a map field. The types of a CEL plugin are resolved before the messages of the file (resolver.go:791-797, 853), so a plugin type for a message with a map field stops the compiler. EnvBuilder.WithVar's closure uses the location of its creation: errors about the name, type or option of an env variable are located at the variable only, and the part appears in the location of an older builder. Clone forgets six parts. resolveMessage gives nested messages and enums the name of the message around them (1151, 1159), so errors about their options are located at a part that does not exist.
57. (C76) The type-checking phase compares `Kind` and never `Repeated`: `if: "[true]"`, `message: "['x']"`, a list of messages as a detail and a list of responses for `ignore_and_response` are accepted and fail at run time. `Type` has one flag for lists: list(list(T)) becomes list(T), map(K, list(V)) becomes map(K, V), and a map whose expression is a list has the type of that list, so later expressions are checked against the wrong type. Every list of definitions starts with an empty map of variables (resolver.go:2427), so a `map` in a handler, a detail or a oneof cannot have a variable of the message as its `src` although it is visible to every expression there. A call with handlers and a validation are added to a map that nobody reads. A `map` without an expression is a nil pointer dereference (resolver.go:4022).
58. (C77) An error of Resolve that is not a *resolver.Error, e.g. of the registry of types (resolver.go:165-167), has no individual errors: the linter prints nothing and exits with 0, and CreateCodeGeneratorResponse dereferences the nil result (generator.go:650). An error of Compile that is not a *CompilerError (compiler.go:156-159) is dropped in the same way. The last line of a file, and so every position in a file of one line without a line break, is never shown (validator.go:155 compares with < what counts from one). The flag for manual imports stays set for all later runs of a validator. The language server publishes an unknown position as line 4294967295, publishes the problems of imported files under the changed document, and takes positions from the file on disk rather than from the editor. The order ignores the file, so that problems of different files are mixed.
59. (C78) Every change starts a goroutine, and nothing orders their publications, so that the diagnostics of an old text may stay on the screen for ever. All goroutines share one Validator and its Compiler, which empty and refill their import paths at every run without a lock: a validation may see no import paths (errors about missing imports for a correct file) or the paths twice; the maps of files they write at the same time may also stop the process (not modelled). A document is validated only when it changes, not when it is opened; a text that does not parse at all leaves the old diagnostics; closing a document keeps its unsaved text, which later completions and definitions use.
60. (C79) findTypeDefinition looks for the last declaration of the file with the simple name: in a file with `Order.Item` and `Cart.Item` the first leads to the second; methods of the same name in two services likewise. getDeclaredTypeNames lists enums only inside of messages, so that enums outside of messages are never found. Names qualified with the own package, names with a leading point, and types declared in an enclosing message (but not in the message of the field) are not found. The package of the open file and the file of an import are found by the end of the name: an import `user.proto` may lead to `superuser.proto`, and importing `der.proto` in `order.proto` takes the package of the former. The message and the method of a definition are not found inside of nested messages.
61. (C80) candidatesVariableName reads `Definitions()[defIdx]` in every turn of its loop where `[i]` is meant: of the variables in scope only one is proposed. For requests and message arguments this one is the variable that is being defined, which may not be used there. The type by which proposals for a field of a request are chosen is that of the field of the request message with the number of the entry, whatever field the entry names. Enum variables are not proposed for numbers, which the resolver accepts. Methods of packages below the own one (`org.post` from `org`) are never proposed. The text edit is computed for quoted nodes; for a word it goes before the last character (`de` becomes `dfe`). Expressions of `if`, of `map`, of validations, retries and errors get the names of options proposed, or nothing.
62. (C81) A method named `get_post` has the constant `…_DependentMethod_…_get_post` declared (code_generator.go:1597) and `…_GetPost` used (3081): the generated file does not compile. The same happens for calls in error rules and in the messages of service variables, for which no constant is declared. Methods of `foo.bar.Baz` and `foo.Bar_Baz` share one constant: errors of one are reported as errors of the other.
63. (C82) A failed search leaves the name of the field in the context (file.go:419): the location of any option, nested message or enum below a field has that field as well, and go to definition, which looks at the field first, goes to the field. A service option below a method is located as the method. `def {..} def {..}` gives index 0 to both (the index counts within one element, 515-582). A string written in two pieces makes the search return nil (e.g. 520-523), for everything after it in the list. Enums at the top level (202-222), map fields, and the texts of `map`, `enum`, `validation`, `error` and `oneof` are not searched at all.
64. (C83) False "Import is unused" warnings (following them breaks the file): resolver.go:523-675 does not look at `if` of a definition, of an argument (705-714) and of a retry policy, at `by` of an enum expression, at an enum expression of a map, at the `def` of an error, at `if` and `def` of a oneof field, at enums nested in messages, at service variables, at `env.message`, at `response` of a method and at plugin functions; ToIdentifiers (conv.go:5-35) does not look into comprehensions, i.e. into the macros `map`, `filter`, `exists`, `all`, nor into the operand of a selection that is no name, as in `pkg.M{}.name`. False "used only for grpc federation" warnings: the options of the file, of messages and of enums (449-495). Missing warnings: in `f(x).post` the field is taken for the package `post`; and a call `my.org.f()` counts for the package `my`, if there is one, instead of `my.org` (696, lookupPackage never tries the whole name first).
65. (C84) A method with both `timeout` and `response` does not compile: server.go.tmpl:486-499 takes the branch of the timeout, `WithTimeout` of the declared response around a resolver that returns the other message, and never converts. When two methods resolve the same response message, lookupRequestMessageFromResponseMessage (resolver.go:5153-5160) takes the request of the one that the iteration over a map meets first: the argument has the fields of that request, and whether the other method compiles differs from run to run (if each request has a field of its own, one of them never compiles). A response that another message uses is no root, so its argument has only what those messages give, and not the fields of the request (3602-3622). The check of `response` (2336-2347) compares kinds: a list passes for a single value, any message for any other, although the error message demands the same type.
66. (C85) expandVal (grpc/federation/cel/log.go:142-162) uses `fmt.Sprint` of a key as the key of the logged map: in `{1: 'a', '1': 'b'}` (or `{1: .., 1u: ..}`, `{true: .., 'true': ..}`) one entry overwrites the other, and as maps are visited in random order the log differs from run to run. An empty list is logged as null, because the slice is never made (154), while an empty map is logged as `{}`.
67. (C86) resolveEnvVar (resolver/resolver.go:2003-2011) names the entry of an environment variable of a map type with `cases.Title`, so `feature_flags` gets `Feature_flagsEntry` and `maxSize` gets `MaxsizeEntry`, where protobuf asks for `FeatureFlagsEntry` and `MaxSizeEntry` (toMapEntryName in the same file knows the rule, but is only used for maps without a name): registering the message of the variables with the expressions fails for every map whose name is not one word. resolveEnvType (2031-2081) also takes maps whose values are lists or maps, which protobuf does not have, and `repeated` before a map is silently ignored. Two maps named `a_b` and `aB` get one name for their entries.
68. (C87) `int31n` of a generator converts its bound with `int32(..)` (grpc/federation/cel/rand.go:176): `r.int31n(2147483648)` fails although the bound is positive, `r.int31n(4294967301)` gives numbers below 5, and so does the negative bound -4294967291, which should fail. `==` on sources and generators (32-37, 59-64) takes a number from both operands: a generator is in general not equal to itself, and a comparison changes all numbers drawn after it.

Further observations from reading the code, without a theorem: candidatesVariableName uses a wrong index; ServiceDependencies' deduplication has no
effect; a service variable that names an
undefined message panics (resolver.go:2542); a service configuration can be used only
once; a client factory that returns nil without error is accepted.

## How to read seeded/LOG.jsonl

One line is one edit of the model in a scratch copy.  `failed` names the lemma or theorem at which
the build stopped; that a proof script fails does not by itself show that the statement became
false.  An empty `failed` means that the edit survived, or, where `note` says so, that the edited
model did not type-check.  Until C57 survivors and edits that break no claim were left out of the
log; 16 of these were found from the saved edits, run again on the current model and added with
the note "logged late".  Edits of the first hours that were not saved may still be missing.

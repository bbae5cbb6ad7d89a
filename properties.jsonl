{"id": "C01", "title": "Checked integer conversions are exact or rejected", "statement": "Each exported integer conversion helper returns the same mathematical integer in the target type when the target type can represent it, and otherwise returns an overflow error and no value; it never silently changes a number.", "quantifier": "every value of the 64/32-bit source type, for all nine helpers", "why_tests_cant": "2^64 inputs per helper; off-by-one at a type boundary is only visible at single values.", "anchors": [{"file": "grpc/federation/cast.go", "symbols": ["Int64ToInt32", "Int64ToUint32", "Int64ToUint64", "Int32ToUint32", "Int32ToUint64", "Uint64ToInt32", "Uint64ToInt64", "Uint64ToUint32", "Uint32ToInt32"]}]}
{"id": "C02", "title": "Generated numeric field casts never change a number silently", "statement": "When a resolved message field is filled from a source field of another integer kind, the generated cast either yields the same integer or fails the request with an overflow error.", "quantifier": "every pair of protobuf integer kinds (int32, int64, uint32, uint64, sint*, fixed*, sfixed*, enum) and every value of the source kind", "why_tests_cant": "The choice of conversion is a table lookup on kind names; a missing row silently truncates only for out-of-range values.", "anchors": [{"file": "generator/code_generator.go", "symbols": ["castValidationNumberMap", "CastField.IsRequiredValidationNumber"]}, {"file": "generator/templates/cast.go.tmpl", "symbols": ["castRequiredValidationNumber", "castDefault"]}]}
{"id": "C03", "title": "A variable is evaluated only after everything it depends on succeeded", "statement": "While a message is resolved, the evaluation of a variable definition starts only after the evaluation of every definition it depends on has finished without error, whatever the goroutine schedule.", "quantifier": "every dependency graph of definitions, every interleaving of the goroutines, every outcome (value, error, panic) of every evaluation", "why_tests_cant": "Interleavings of an errgroup over an arbitrary DAG cannot be enumerated; a wrong plan only fails under rare schedules.", "anchors": [{"file": "generator/templates/eval.go.tmpl", "symbols": ["evalDefGroup", "evalDefSet"]}, {"file": "resolver/graph.go", "symbols": ["MessageDependencyGraph.VariableDefinitionGroups", "createVariableDefinitionGroup"]}, {"file": "grpc/federation/cel.go", "symbols": ["EvalDef", "LocalValue.do"]}]}
{"id": "C04", "title": "The evaluation plan covers exactly the declared definitions", "statement": "If the definitions of a message are accepted, the plan generated for it evaluates every declared definition and nothing else.", "quantifier": "every list of definitions with arbitrary names and references", "why_tests_cant": "A definition dropped from the plan is silent: its variable just stays at the zero value; it depends on the graph shape.", "anchors": [{"file": "resolver/graph.go", "symbols": ["setupVariableDefinitionSet", "uniqueChildren", "VariableDefinitionGroups"]}]}
{"id": "C05", "title": "Variable dependency edges are exactly the references to earlier definitions", "statement": "A definition is ordered after another one iff it refers to that definition's name (declared before it) or a validation definition separates them; edges never point backwards, so a definition list can be cyclic only through a self reference.", "quantifier": "every ordered list of definitions and every reference set", "why_tests_cant": "Requires reasoning over all definition lists; tests fix a few.", "anchors": [{"file": "resolver/graph.go", "symbols": ["setupVariableDependencyByReferenceName", "setupVariableDependencyByValidation", "validateMessageGraph"]}]}
{"id": "C06", "title": "Message dependency cycles are reported", "statement": "Building the dependency graph of all messages reports an error whenever messages depend on each other cyclically, and reports none when they do not.", "quantifier": "every set of messages and every dependency relation between them", "why_tests_cant": "Cycle detection depends on the whole graph shape, in particular on how the cycle is reached.", "anchors": [{"file": "resolver/graph.go", "symbols": ["CreateAllMessageDependencyGraph", "validateAllMessageGraph", "validateAllMessageGraphNode"]}]}
{"id": "C07", "title": "One variable, one evaluation", "statement": "For one resolution of a message, evaluations of the same variable never overlap in time, every caller that asks for it obtains the outcome (value or error) of one of those evaluations, a caller that starts after an outcome was recorded never re-evaluates, and no variable is evaluated more than once.", "quantifier": "every number of concurrent callers, every interleaving of cache lookup, single-flight entry, evaluation, store and return", "why_tests_cant": "Needs a schedule exactly between the cache lookup and single-flight entry; a race detector does not flag it.", "anchors": [{"file": "grpc/federation/cel.go", "symbols": ["LocalValue.do", "EvalDef", "EvalDefMap"]}]}
{"id": "C08", "title": "Conditional definitions", "statement": "A definition whose `if` evaluates to false is set to the zero value without running its body; if the `if` fails the error is returned and the variable is left untouched; otherwise the variable is set to the body's value and the body's error, if any, is returned.", "quantifier": "every definition shape (by/message/enum/validation), every outcome of condition, body and setter", "why_tests_cant": "All combinations of outcomes and prior state must be covered.", "anchors": [{"file": "grpc/federation/cel.go", "symbols": ["evalDef", "evalDefMap", "IgnoreAndResponse"]}]}
{"id": "C09", "title": "Map evaluation preserves order and length and stops at the first failure", "statement": "A map definition yields exactly one element per source element, in source order, each computed with the iterator bound to that element; if the computation fails for an element, the first such error is returned and later elements are not evaluated; the surrounding variables are not changed by the iteration.", "quantifier": "every source list, every element function", "why_tests_cant": "Quantifies over all lists and all element functions.", "anchors": [{"file": "grpc/federation/cel.go", "symbols": ["evalMap", "EvalDefMap", "MapIteratorValue"]}]}
{"id": "C10", "title": "Retry policy", "statement": "A call with a retry policy is attempted again only after a failure whose retry condition evaluated to true, at most max_retries more times (zero, as documented, meaning no bound; five if absent); the reported result is that of the last attempt; a failing retry condition is reported instead of the call error.", "quantifier": "every sequence of attempt outcomes and condition outcomes, every max_retries, every backoff", "why_tests_cant": "Unbounded sequences of attempts; off by one in the attempt count needs the exact failing prefix.", "anchors": [{"file": "grpc/federation/lib.go", "symbols": ["WithRetry"]}, {"file": "generator/templates/retry.go.tmpl", "symbols": ["retry"]}, {"file": "resolver/resolver.go", "symbols": ["resolveRetry"]}]}
{"id": "C11", "title": "Timeout", "statement": "A call with a timeout returns either the call's own result or a DEADLINE_EXCEEDED status, never both or neither, and it never blocks after the deadline; the call goroutine never blocks forever on delivering its result.", "quantifier": "every interleaving of call completion, deadline expiry and parent cancellation", "why_tests_cant": "Schedules in which completion and deadline race.", "anchors": [{"file": "grpc/federation/lib.go", "symbols": ["WithTimeout"]}]}
{"id": "C12", "title": "Error rules: the first matching rule decides", "statement": "When a method call fails, the error rules are tried in order; the first one whose condition is true decides the outcome (ignored, replaced by a response, or turned into a status with the rule's code, message and details, falling back to those of the original error); with no matching rule the original error is returned; if handling itself fails the original error is returned.", "quantifier": "every list of error rules, every original error, every outcome of the rule's expressions", "why_tests_cant": "Combinatorial in rules and outcomes.", "anchors": [{"file": "generator/templates/error_handler.go.tmpl", "symbols": ["errorHandler"]}, {"file": "grpc/federation/cel.go", "symbols": ["If", "IgnoreAndResponse"]}]}
{"id": "C13", "title": "A failed call is not turned into success unless a rule says ignore", "statement": "If a method call fails and no rule with ignore or ignore_and_response matched, the definition reports an error (with the default error handler).", "quantifier": "every error (with or without gRPC status) and every rule list", "why_tests_cant": "Only particular combinations of an error without a status and a rule without a code expose it.", "anchors": [{"file": "generator/templates/error_handler.go.tmpl", "symbols": ["errorHandler"]}]}
{"id": "C14", "title": "Error rules see the error they handle", "statement": "While the error rules of a failed call are evaluated, the `error` variable denotes the error of that call.", "quantifier": "every number of concurrently failing calls in one message, every interleaving", "why_tests_cant": "The variable lives in the message-wide store, so only interleavings of two failing calls show a violation.", "anchors": [{"file": "grpc/federation/cel.go", "symbols": ["SetGRPCError", "LocalValue.setEvalValue"]}, {"file": "grpc/federation/lib.go", "symbols": ["WithRetry"]}]}
{"id": "C15", "title": "Error details are classified without loss", "statement": "The `error` variable built from a gRPC status holds the status code and message, every proto detail in its original order, and each detail also in the list of its type (unknown types in custom messages), preserving relative order.", "quantifier": "every status and every detail list", "why_tests_cant": "All detail lists.", "anchors": [{"file": "grpc/federation/cel.go", "symbols": ["SetGRPCError"]}]}
{"id": "C16", "title": "Validation outcome", "statement": "A validation definition fails exactly when its error condition is true or something in it fails to evaluate; the failure carries the rule's status, and an error that is not a status is reported as INTERNAL.", "quantifier": "every condition, message, detail outcome", "why_tests_cant": "All combinations of outcomes.", "anchors": [{"file": "generator/templates/validation.go.tmpl", "symbols": ["messageValidation"]}, {"file": "grpc/federation/cel.go", "symbols": ["evalDef"]}, {"file": "grpc/federation/error.go", "symbols": ["NewErrorWithLogAttrs"]}]}
{"id": "C17", "title": "Null comparison rewriting", "statement": "Before evaluation, exactly the comparisons (== or !=) between a non-null-literal operand and the null literal get that operand wrapped in the null cast, everywhere in the expression; nothing else changes, new node ids are fresh, and rewriting an already rewritten expression changes nothing.", "quantifier": "every CEL expression tree", "why_tests_cant": "Recursion over arbitrarily nested expression trees.", "anchors": [{"file": "grpc/federation/cel.go", "symbols": ["comparingNullResolver", "exprVisitor", "createCELAst"]}]}
{"id": "C18", "title": "Message argument placeholder", "statement": "In a CEL expression, `$` denotes the message argument and substituting it changes nothing else; in particular string literals keep their text.", "quantifier": "every expression text", "why_tests_cant": "All texts.", "anchors": [{"file": "grpc/federation/cel.go", "symbols": ["createCELAst"]}, {"file": "resolver/resolver.go", "symbols": ["resolveCELValue"]}]}
{"id": "C19", "title": "Plugin value codec round trip", "statement": "A value passed from the host to a CEL plugin, or returned by it, arrives as the same value, for every supported type including nested lists.", "quantifier": "every value of the declared type", "why_tests_cant": "Infinitely many values; truncation only shows for large numbers.", "anchors": [{"file": "grpc/federation/cel_plugin.go", "symbols": ["ToCELPluginResponse"]}, {"file": "grpc/federation/cel/plugin.go", "symbols": ["refToCELPluginValue", "celPluginValueToRef"]}]}
{"id": "C20", "title": "Plugin calls get their own response", "statement": "Concurrent calls on a plugin instance are serialised: each call receives the response to its own request, and a terminated or closed instance yields an error rather than a stale response or a hang.", "quantifier": "every interleaving of calls, close, garbage-collection requests and plugin termination", "why_tests_cant": "Schedules of at least four goroutines.", "anchors": [{"file": "grpc/federation/cel/plugin.go", "symbols": ["CELPluginInstance.Call", "write", "recvContent", "Close", "GC"]}]}
{"id": "C21", "title": "Plugin instance lifecycle is panic-free", "statement": "Closing an instance any number of times, and requesting garbage collection at any time, never panics and never blocks.", "quantifier": "every sequence and interleaving of Close, GC and calls", "why_tests_cant": "Needs particular operation orders, e.g. two closes.", "anchors": [{"file": "grpc/federation/cel/plugin.go", "symbols": ["CELPluginInstance.Close", "CELPluginInstance.GC", "startGC"]}]}
{"id": "C22", "title": "Oneof field selection", "statement": "For a resolved oneof, the first field in declaration order whose condition is true is set, otherwise the default field, otherwise none; at most one is set, and a failing condition fails the resolution.", "quantifier": "every number of fields, every condition outcome", "why_tests_cant": "All outcome vectors.", "anchors": [{"file": "generator/templates/server.go.tmpl", "symbols": ["oneof"]}, {"file": "generator/code_generator.go", "symbols": ["oneofValueToReturnField"]}]}
{"id": "C23", "title": "Enum conversion follows the aliases", "statement": "Converting an enum value of a dependency to the federation enum gives the value that declares it as alias, or the declared default, or 0; converting back gives the unique alias; converting there and back is the identity where defined; ambiguous conversions are rejected at generation time.", "quantifier": "every pair of enums, every alias table, every numeric value including unknown ones", "why_tests_cant": "All alias tables and values.", "anchors": [{"file": "generator/code_generator.go", "symbols": ["CastField.ToEnum", "toEnumFromDepServiceToService", "toEnumFromServiceToDepService"]}, {"file": "generator/templates/cast.go.tmpl", "symbols": ["castEnum"]}]}
{"id": "C24", "title": "Message conversion copies every corresponding field", "statement": "Converting a message to the federation message sets every target field from the source field it is aliased to (or the one of the same name), leaves others at zero, maps nil to nil, preserves list order and length and map keys, and fails if any nested conversion fails.", "quantifier": "every pair of message types (arbitrarily nested) and every value", "why_tests_cant": "Recursion over types and values.", "anchors": [{"file": "generator/code_generator.go", "symbols": ["CastField.ToStruct", "toStructField", "ToSlice", "ToMap", "ToOneof"]}, {"file": "generator/templates/cast.go.tmpl", "symbols": ["castMessage", "castRepeated", "castMap", "castOneof"]}]}
{"id": "C25", "title": "CEL list library", "statement": "sortAsc/sortDesc return a permutation of the list ordered by the key, sortStable* additionally keep the order of equal keys, first picks the first match, flatten concatenates, reduce folds from the left.", "quantifier": "every list and key", "why_tests_cant": "All lists.", "anchors": [{"file": "grpc/federation/cel/list.go", "symbols": ["ListLibrary"]}]}
{"id": "C26", "title": "Name resolution picks the declared entity", "statement": "A fully or partially qualified type or method name used in an option resolves to the entity with that name: the longest declared package that prefixes it is used, a name of the current package needs no prefix, and a method path is split into package, service and method.", "quantifier": "every name and every set of packages", "why_tests_cant": "All strings and package sets.", "anchors": [{"file": "resolver/resolver.go", "symbols": ["lookupPackage", "trimPackage", "splitMethodFullName", "lookupMessage"]}]}
{"id": "C27", "title": "Variable names are unambiguous", "statement": "In an accepted message, two definitions (including those in error handlers, details and oneof fields) never share a name, user names are identifiers other than the reserved `error`, and automatically chosen names never clash with each other.", "quantifier": "every message with any number of definitions, handlers and details", "why_tests_cant": "All nesting combinations.", "anchors": [{"file": "resolver/resolver.go", "symbols": ["validateName", "validateDuplicatedVariableName", "resolveVariableDefinitionSet"]}]}
{"id": "C28", "title": "Auto binding is unambiguous", "statement": "A field without explicit rule is filled from an auto-bind definition iff exactly one auto-bind definition offers a field of that name with an assignable type; several candidates are an error.", "quantifier": "every message, every set of auto-bind definitions", "why_tests_cant": "All combinations.", "anchors": [{"file": "resolver/resolver.go", "symbols": ["resolveAutoBindFields", "isDifferentType"]}]}
{"id": "C29", "title": "Every variable used is ordered before its use", "statement": "Every variable referred to by any expression of a definition (arguments and their conditions, retry and error conditions, messages, details, responses, map sources) is counted as a dependency of that definition.", "quantifier": "every definition expression", "why_tests_cant": "All expression shapes; an omission only shows as a race at run time.", "anchors": [{"file": "resolver/def.go", "symbols": ["VariableDefinition.ReferenceNames"]}, {"file": "resolver/value.go", "symbols": ["ReferenceNames"]}]}
{"id": "C30", "title": "Import aliases are distinct", "statement": "In a generated file no two imported packages have the same alias, and every alias resolves to its package.", "quantifier": "every set of imported packages and names", "why_tests_cant": "Only three packages with the same base name show a clash.", "anchors": [{"file": "generator/code_generator.go", "symbols": ["File.Imports", "File.getAlias"]}]}
{"id": "C31", "title": "CEL cache indices are unique", "statement": "Every expression in a generated service is evaluated with its own non-zero cache index, so a cached program is never used for another expression.", "quantifier": "every service, any number of expressions", "why_tests_cant": "Global uniqueness over the whole generated file.", "anchors": [{"file": "generator/code_generator.go", "symbols": ["Service.CELCacheIndex"]}, {"file": "grpc/federation/cel.go", "symbols": ["EvalCEL", "createCELProgram", "CELCacheMap"]}]}
{"id": "C32", "title": "Generated contexts are well scoped", "statement": "In generated code every context variable that is used is declared in an enclosing scope, is the context of the nearest enclosing goroutine group, so that a failure in a group cancels exactly its members, and is not used after the group has been waited for; every group is waited for before going on; and no declared name is left unused.", "quantifier": "every evaluation plan", "why_tests_cant": "All nesting depths.", "anchors": [{"file": "generator/funcs.go", "symbols": ["ParentCtx"]}, {"file": "generator/templates/eval.go.tmpl", "symbols": ["evalDefGroup", "evalDefSet"]}]}
{"id": "C33", "title": "Incremental generation equals full generation", "statement": "In watch mode, after any sequence of file events the set of generated files on disk is the one a fresh generation of the current proto files would produce.", "quantifier": "every sequence of create/update/delete events with successful and failing compilations", "why_tests_cant": "Unbounded histories.", "anchors": [{"file": "generator/generator.go", "symbols": ["Generator.createProtoFile", "updateProtoFile", "deleteProtoFile", "otherResults"]}]}
{"id": "C34", "title": "Watch mode reacts to the last change", "statement": "After file changes stop, the generator eventually has run on the latest content of every changed file.", "quantifier": "every interleaving of file events and generator runs", "why_tests_cant": "Schedules.", "anchors": [{"file": "generator/watcher.go", "symbols": ["Watcher.handleEvent", "Watcher.sendEventLoop", "Watcher.receiveEventLoop"]}]}
{"id": "C35", "title": "All code generator plugins get the request", "statement": "Every configured code generator plugin receives the complete generation request of every processed proto file.", "quantifier": "every number of plugins", "why_tests_cant": "The number of plugins is unbounded and the single-plugin case works.", "anchors": [{"file": "generator/generator.go", "symbols": ["evalAllCodeGenerationPlugin", "evalCodeGeneratorPlugin"]}]}
{"id": "C36", "title": "Plugin option parsing", "statement": "The options string of the protoc plugin is split into key/value options; each is applied or rejected, none is silently dropped, and serialising then parsing options gives the same options.", "quantifier": "every options string", "why_tests_cant": "All strings.", "anchors": [{"file": "generator/generator.go", "symbols": ["parseOptString", "parseOpt", "splitOpt"]}]}
{"id": "C37", "title": "Shared environment is consistent across services", "statement": "The environment (and service variables) visible to a message used by several services contains exactly the variables that all these services declare with the same type; a type conflict is an error.", "quantifier": "every set of services and variable declarations", "why_tests_cant": "All sets.", "anchors": [{"file": "resolver/resolver.go", "symbols": ["buildEnvMessage", "buildServiceVariablesMessage", "isExactlySameType"]}]}
{"id": "C38", "title": "Accepted assignments are type-compatible", "statement": "If an expression is accepted as the value of a field, its type and the field's type agree (same kind or a documented numeric/enum conversion, same message, same repeatedness).", "quantifier": "every pair of types", "why_tests_cant": "All pairs, arbitrarily nested.", "anchors": [{"file": "resolver/resolver.go", "symbols": ["isDifferentType", "validateBindFieldType", "validateRequestFieldType"]}]}
{"id": "C39", "title": "Message arguments agree across callers", "statement": "Every caller of a message passes an argument of the same type under the same name; the argument type of a message is the union of all names passed.", "quantifier": "every set of callers", "why_tests_cant": "All call graphs.", "anchors": [{"file": "resolver/resolver.go", "symbols": ["resolveMessageArgument", "resolveMessageArgumentFields", "validateMessageDependencyArgumentName"]}]}
{"id": "C40", "title": "Code-generation request round trip", "statement": "The description of the resolved schema handed to a code generator plugin decodes to the same schema it was encoded from, including shared and cyclic references.", "quantifier": "every resolved schema", "why_tests_cant": "Unbounded cyclic object graphs.", "anchors": [{"file": "grpc/federation/generator/encode.go", "symbols": ["encoder"]}, {"file": "grpc/federation/generator/decode.go", "symbols": ["decoder"]}]}
{"id": "C41", "title": "Panics become errors", "statement": "A panic in any goroutine of a resolution is turned into an error of that resolution carrying the panic value and its stack; it never crashes the process or is lost.", "quantifier": "every panic value and stack, every goroutine of the plan", "why_tests_cant": "All schedules and panic points.", "anchors": [{"file": "grpc/federation/error.go", "symbols": ["GoWithRecover", "RecoverError"]}, {"file": "generator/templates/server.go.tmpl", "symbols": ["method"]}]}
{"id": "C42", "title": "Go identifiers generated for distinct names are distinct", "statement": "Distinct proto names generate distinct Go identifiers wherever the generated code needs them distinct (conversion functions, plugin functions, resolver names).", "quantifier": "every pair of qualified names", "why_tests_cant": "All pairs of names.", "anchors": [{"file": "generator/code_generator.go", "symbols": ["castFuncName", "castName", "protoFQDNToPublicGoName"]}, {"file": "resolver/resolver.go", "symbols": ["toPluginFunctionID"]}, {"file": "util/name.go", "symbols": ["ToPublicGoVariable"]}]}
{"id": "C43", "title": "Import resolution terminates, and processes every file once and after its dependencies", "statement": "Resolving a set of proto files that needs finitely many files ends, whatever the imports are. Imports that do not compile are reported. A cycle of imports is reported as an error, and only if there is one. Otherwise exactly the needed files are registered and resolved, each once and after everything it imports; compilation and the result list each file once.", "quantifier": "every import graph, every import list of file options, every iteration order of the map of files", "why_tests_cant": "All graphs, and the iteration order of Go maps is random.", "anchors": [{"file": "resolver/resolver.go", "symbols": ["Resolve", "resolveFileImportRule", "resolveFileImportRuleRecursive", "resolveFile", "resultFiles"]}, {"file": "resolver/cel.go", "symbols": ["RegisterFiles", "registerFileDeps"]}, {"file": "compiler/compiler.go", "symbols": ["getProtoFiles", "getFileDescriptors"]}]}
{"id": "C44", "title": "Service construction rejects incomplete configuration", "statement": "Creating a service fails unless every required client factory, resolver and plugin is configured; a created service has all of them, and the default error handler returns the error unchanged.", "quantifier": "every configuration", "why_tests_cant": "All subsets of missing parts.", "anchors": [{"file": "generator/templates/server.go.tmpl", "symbols": ["New"]}]}
{"id": "C45", "title": "Log attributes accumulate", "statement": "Attributes added while a message is resolved are on every later log record of that message and of the messages and custom resolvers it goes on to enter, in the order added and once each, whatever attributes the other messages of the request add and whatever error records are written.", "quantifier": "every sequence of entering messages, adding attributes, keeping them in errors and writing error records", "why_tests_cant": "Unbounded histories.", "anchors": [{"file": "grpc/federation/log/context.go", "symbols": ["AddAttrs", "Attrs", "WithLogger"]}]}
{"id": "C46", "title": "Standard error details keep exactly the violations that evaluate", "statement": "A PreconditionFailure or BadRequest error detail contains, in order, exactly the violations all of whose expressions evaluate; if there is none the detail is omitted; a failing expression never prevents the other details from being attached.", "quantifier": "every violation list and every outcome of each expression", "why_tests_cant": "All subsets of failing expressions.", "anchors": [{"file": "grpc/federation/validation.go", "symbols": ["PreconditionFailure", "BadRequest", "LocalizedMessage", "CustomMessage"]}]}
{"id": "C47", "title": "Accepted plugins implement every function", "statement": "A service starts with a plugin only if the plugin speaks the expected protocol version and implements every function the service may call; a call of an accepted plugin is never answered with an unknown function.", "quantifier": "every set of declared functions and every plugin answer", "why_tests_cant": "All combinations of function lists.", "anchors": [{"file": "grpc/federation/cel/plugin.go", "symbols": ["ValidatePlugin"]}, {"file": "generator/templates/plugin.go.tmpl", "symbols": ["Register", "handle"]}]}
{"id": "C48", "title": "Every field of an accepted message gets the value its rule asks for", "statement": "When a message is resolved without error, each field with a rule holds the value that rule asks for (the expression, the custom resolver's result, or the field of the automatically bound variable, converted), and a field without one is left alone. The resolution fails exactly if one of these values, or a condition of a oneof, fails.", "quantifier": "every message definition the resolver accepts, and every outcome of its expressions", "why_tests_cant": "All message definitions and outcomes.", "anchors": [{"file": "generator/code_generator.go", "symbols": ["ReturnFields", "celValueToReturnField", "autoBindFieldToReturnField", "oneofValueToReturnField"]}, {"file": "resolver/resolver.go", "symbols": ["resolveFieldRule", "resolveAutoBindFields", "validateMessageFields"]}, {"file": "generator/templates/server.go.tmpl", "symbols": ["field binding section"]}]}
{"id": "C49", "title": "Every conversion the generated code calls is generated", "statement": "Every type conversion function called by generated code, including from inside other conversion functions, is itself generated, once, and collecting them terminates for recursive messages.", "quantifier": "every schema (including recursive messages) and every set of assignments", "why_tests_cant": "All message graphs.", "anchors": [{"file": "resolver/type_conversion.go", "symbols": ["TypeConversionDecls", "typeConversionDecls", "requiredTypeConversion"]}, {"file": "generator/code_generator.go", "symbols": ["CastFields", "ToStruct", "ToEnum", "ToSlice"]}]}
{"id": "C50", "title": "Only verified code generator plugins run", "statement": "A code generator plugin module is executed only if its SHA-256 is the one configured with it, whatever files, plugins and failures precede it.", "quantifier": "every list of plugins and results and every file content", "why_tests_cant": "All contents and all failure points.", "anchors": [{"file": "generator/generator.go", "symbols": ["evalAllCodeGenerationPlugin", "parseFileSchemeOption"]}]}
{"id": "C51", "title": "Watch mode notices every proto file", "statement": "In watch mode a change to any proto file at any depth below the configured source directories causes a generation.", "quantifier": "every directory tree and every list of source directories", "why_tests_cant": "All trees and all spellings of paths.", "anchors": [{"file": "generator/watcher.go", "symbols": ["Watcher.setWatchPathRecursive", "Watcher.ignoreFilePath", "Watcher.isModified"]}]}
{"id": "C52", "title": "A service asks for exactly the clients it needs", "statement": "The clients that the generated configuration of a service asks for are exactly those of the services called by the messages reachable from the service's responses (custom responses included) and service variables; each is asked for once and the order is fixed.", "quantifier": "every schema and every service", "why_tests_cant": "The set of schemas (nesting of messages, error rules and oneof definitions, shared and cyclic references) is unbounded.", "anchors": [{"file": "resolver/service.go", "symbols": ["Service.UseServices", "Service.ServiceDependencies"]}, {"file": "resolver/message.go", "symbols": ["Message.DependServices", "dependServicesByDefinition", "Message.AllVariableDefinitions"]}]}
{"id": "C53", "title": "A service can resolve every message it refers to", "statement": "Every message with a message option that is reachable from the responses or variables of a service gets a resolver in that service's generated code.", "quantifier": "every schema without message cycles and every service", "why_tests_cant": "Unbounded message graphs.", "anchors": [{"file": "resolver/resolver.go", "symbols": ["resolveMessageArgument"]}, {"file": "resolver/graph.go", "symbols": ["CreateAllMessageDependencyGraph", "childMessages"]}, {"file": "resolver/service.go", "symbols": ["HasMessageInMethod", "HasMessageInVariables"]}]}
{"id": "C54", "title": "A service asks for exactly the custom resolvers it needs", "statement": "The resolver interface of a service has exactly the custom resolvers of messages and fields reachable from its responses and variables, and finding them never crashes.", "quantifier": "every schema without message cycles and every service", "why_tests_cant": "Unbounded message graphs.", "anchors": [{"file": "resolver/service.go", "symbols": ["Service.CustomResolvers"]}, {"file": "resolver/message.go", "symbols": ["Message.CustomResolvers", "customResolvers"]}]}
{"id": "C55", "title": "Plugins that were started are closed", "statement": "Cleaning up a service closes every plugin instance its construction started, once; a construction that fails leaves no instance running.", "quantifier": "every service declaration, configuration and outcome of every part", "why_tests_cant": "Every combination of failing parts.", "anchors": [{"file": "generator/templates/server.go.tmpl", "symbols": ["New", "Cleanup", "cleanup"]}, {"file": "grpc/federation/cel/plugin.go", "symbols": ["NewCELPlugin", "CreateInstance", "Close"]}]}
{"id": "C56", "title": "Every function of the CEL library and of plugins can be called, and none changes what another call means", "statement": "An expression in which functions and methods of CEL, of the standard library of gRPC Federation and of plugins are called compiles to calls of exactly those with the arguments written, also after it was printed and compiled again; declaring a further function does not change or break the calls of others.", "quantifier": "every set of library and plugin functions and methods, every package and every expression", "why_tests_cant": "Interactions between all pairs of declared names, receivers and nesting of calls.", "anchors": [{"file": "grpc/federation/cel/bind.go", "symbols": ["BindFunction", "BindMemberFunction"]}, {"file": "grpc/federation/cel/lib.go", "symbols": ["NewLibrary"]}, {"file": "grpc/federation/cel/plugin.go", "symbols": ["CELPluginInstance.CompileOptions"]}, {"file": "resolver/cel.go", "symbols": ["CELPlugin.CompileOptions"]}]}
{"id": "C57", "title": "An expression the generator accepts compiles in the service", "statement": "Every CEL expression of an option that the generator has accepted compiles when the generated service runs, and calls the same functions and methods with the same arguments as those the generator has checked.", "quantifier": "every set of plugins, every package of the message and of the service, and every expression", "why_tests_cant": "The two environments are built by different code; every pair of names may interact.", "anchors": [{"file": "resolver/cel.go", "symbols": ["CELPlugin.CompileOptions"]}, {"file": "resolver/resolver.go", "symbols": ["createCELEnv", "createMessageCELEnv"]}, {"file": "grpc/federation/cel.go", "symbols": ["NewDefaultEnvOptions", "createCELAst"]}, {"file": "grpc/federation/cel/bind.go", "symbols": ["BindFunction", "BindMemberFunction"]}, {"file": "grpc/federation/cel/plugin.go", "symbols": ["CELPluginInstance.CompileOptions"]}]}
{"id": "C58", "title": "Every enum and plugin reachable by imports is available, once", "statement": "The enums (and plugins) known to a file are those declared in it, at any nesting, or in a file it imports at any distance: every such full name once, in ascending order, whatever the order of iteration over maps and of the files asked before.", "quantifier": "every tree of imports, every order of map iteration, every sequence of files sharing the cache", "why_tests_cant": "Imports form arbitrary graphs and Go randomises map iteration.", "anchors": [{"file": "resolver/file.go", "symbols": ["AllEnums", "AllEnumsIncludeDeps", "AllCELPlugins"]}, {"file": "resolver/message.go", "symbols": ["AllEnums"]}]}
{"id": "C59", "title": "An accessor of an enum the generator accepts exists in the service", "statement": "If an expression may call name, value, from or attr of an enum when code is generated, the running service has that accessor.", "quantifier": "every tree of imports and every enum in it", "why_tests_cant": "The two sets of accessors are built by different code from different files.", "anchors": [{"file": "resolver/resolver.go", "symbols": ["createEnumAccessors"]}, {"file": "generator/code_generator.go", "symbols": ["File.Enums"]}, {"file": "grpc/federation/cel.go", "symbols": ["EnumAccessorOptions", "EnumAttrOption", "NewDefaultEnvOptions"]}]}
{"id": "C60", "title": "Attributes and names of enum values come back as declared", "statement": "Attributes of an accepted enum are on each of its values, the code generated for them is valid and attr returns them; name and value turn numbers into names and back, and undeclared ones are reported or empty.", "quantifier": "every enum, every attribute text, every number and name given to an accessor", "why_tests_cant": "Any multiset of attributes, any text and any 64-bit number may occur.", "anchors": [{"file": "resolver/resolver.go", "symbols": ["resolveEnumRules", "resolveEnumValueAttribute"]}, {"file": "resolver/enum.go", "symbols": ["AttributeMap"]}, {"file": "generator/code_generator.go", "symbols": ["EnumAttributes"]}, {"file": "generator/templates/server.go.tmpl", "symbols": ["EnumAttributes"]}, {"file": "grpc/federation/cel.go", "symbols": ["EnumAccessorOptions", "EnumAttrOption"]}]}
{"id": "C61", "title": "Every file that is needed is generated, once", "statement": "If there is a service, code is generated for exactly the files whose package has a service or a plugin, each once; and what a generated file uses of another is generated too.", "quantifier": "every set of files, packages and imports, in every order", "why_tests_cant": "Sets of files and packages are unbounded.", "anchors": [{"file": "resolver/resolver.go", "symbols": ["resultFiles", "hasServiceOrPluginRuleFiles", "samePackageFiles", "existsServiceRule"]}, {"file": "generator/code_generator.go", "symbols": ["File.Enums", "EnumAttributes"]}]}
{"id": "C62", "title": "A selected enum value is the one assigned", "statement": "grpc.federation.enum.select accepts exactly values of known enums and such calls, and the field or definition gets the value the conditions lead to, converted from its own enum; enums that may come out must be the wanted one or aliased with it.", "quantifier": "every nesting of calls, every condition, every enum and value", "why_tests_cant": "Calls nest to any depth and the type of the value depends on all of them.", "anchors": [{"file": "grpc/federation/cel/enum.go", "symbols": ["EnumLibrary.CompileOptions", "enumValidator"]}, {"file": "resolver/resolver.go", "symbols": ["fromCELType", "resolveEnumExprCELValues", "validateBindFieldEnumSelectorType"]}, {"file": "generator/code_generator.go", "symbols": ["createEnumSelectorParam"]}, {"file": "generator/templates/eval.go.tmpl", "symbols": ["setEnumValueByEnumSelector"]}]}
{"id": "C63", "title": "Generated files are written where their proto file says", "statement": "The path of a generated file is the directory of its Go package, the same below the module prefix, or where its proto file is below the import path, followed by the name of the proto file in lower case; an import path that is not below the module prefix, and a missing Go package, are refused.", "quantifier": "every mode, every spelling of paths and import paths, every set of files generated together", "why_tests_cant": "Paths have any number of elements and spellings, and the files made for one proto file depend on all it imports.", "anchors": [{"file": "resolver/file.go", "symbols": ["OutputFilePathResolver.OutputDir", "OutputFilePathResolver.OutputPath", "relativePath", "FileName"]}, {"file": "generator/generator.go", "symbols": ["generateByGRPCFederation", "CreateCodeGeneratorResponse"]}]}
{"id": "C64", "title": "No generated file overwrites another", "statement": "Two different proto files of one run never get the same output path, and every output path is recognised as that of a generated file.", "quantifier": "every set of proto files, every mode", "why_tests_cant": "A collision depends on pairs of names over all sets of files.", "anchors": [{"file": "resolver/file.go", "symbols": ["OutputFilePathResolver.OutputPath", "FileName", "IsGRPCFederationGeneratedFile"]}, {"file": "generator/generator.go", "symbols": ["CreateCodeGeneratorResponse"]}]}
{"id": "C65", "title": "A file is compiled under the name it is imported by", "statement": "A proto file below an import path is compiled under its path below one of the import paths, and a file outside of all of them under the path that was given.", "quantifier": "every working directory, list of import paths and path", "why_tests_cant": "Which import path is chosen depends on the text of all of them.", "anchors": [{"file": "compiler/compiler.go", "symbols": ["RelativePathFromImportPaths"]}, {"file": "generator/generator.go", "symbols": ["compileProto"]}]}
{"id": "C66", "title": "Environment variables have the value their options say", "statement": "When the service starts, each variable has the value of the environment variable its option names (its own name in upper case by default), or its default, or the zero value; a required variable that is missing stops the start and an ignored one is not read; and expressions read that value by the variable's name.", "quantifier": "every list of variables with every combination and text of options, and every environment", "why_tests_cant": "Option texts are quoted into Go source, parsed again from a struct tag and combined with any environment.", "anchors": [{"file": "generator/code_generator.go", "symbols": ["EnvVar.Tag", "EnvVar.Name"]}, {"file": "generator/templates/server.go.tmpl", "symbols": ["envconfig"]}, {"file": "grpc/federation/alias.go", "symbols": ["LoadEnv"]}]}
{"id": "C67", "title": "An environment variable has the type it is declared with", "statement": "A declared type is either refused with an error or gives the Go type it describes, which is valid Go.", "quantifier": "every nesting of kinds, repeated and map, with parts left out", "why_tests_cant": "Types nest to any depth.", "anchors": [{"file": "resolver/resolver.go", "symbols": ["resolveEnvVar", "resolveEnvType"]}, {"file": "resolver/message.go", "symbols": ["NewMapType"]}, {"file": "generator/code_generator.go", "symbols": ["EnvVar.Type", "toTypeText"]}]}
{"id": "C68", "title": "Logging a message calls a function that exists and takes it", "statement": "The generator ends for every set of messages; the functions that turn messages, enums, lists, maps and message arguments into log values are generated once each, every call of one passes the type it takes, the generated functions are valid Go, and each logs all fields of its value under their names.", "quantifier": "every graph of messages, recursive or not, with every kind of field, list, map and enum, every set of message arguments and variables", "why_tests_cant": "Messages refer to each other in arbitrary graphs, and names clash only between particular pairs of types.", "anchors": [{"file": "generator/code_generator.go", "symbols": ["Service.LogValues", "setLogValueByMessage", "setLogValueByMapMessage", "setLogValueByMessageArgument", "setLogValueByRepeatedType", "logType", "logValue", "logMapValue", "newTypeDeclaresWithMessage"]}, {"file": "generator/templates/server.go.tmpl", "symbols": ["LogValues"]}]}
{"id": "C69", "title": "The variables of a service are set as the service says", "statement": "The generator accepts the variables of a service exactly if names are valid and distinct, every expression checks with the variables before it, and conditions and validations are booleans with a text message; the code for an accepted service is valid Go, and when the service starts every variable is set, in order, to the value of its expression, or to its zero value if its condition is false; the first failing expression or validation stops the start with its error.", "quantifier": "every list of service variables with any expressions, conditions, validations and names, every type checker and every evaluation", "why_tests_cant": "The meaning of a list depends on every earlier variable; the defects need a condition, two validations, or names that coincide in Go.", "anchors": [{"file": "resolver/resolver.go", "symbols": ["resolveServiceVariables", "resolveServiceVariable", "resolveServiceVariableExpr", "resolveServiceVariableValidationExpr"]}, {"file": "resolver/service.go", "symbols": ["ServiceVariable.ToVariableDefinition"]}, {"file": "generator/templates/server.go.tmpl", "symbols": ["initServiceVariables"]}, {"file": "grpc/federation/cel.go", "symbols": ["evalDef", "If", "EvalCEL"]}]}
{"id": "C70", "title": "A message argument keeps its value", "statement": "While a message is resolved, `$.x` is the value the caller passed, in definitions and fields alike; a custom resolver is given every argument the message was called with and every variable of the message; each field gets the value of its expression, its resolver or the chosen case of its oneof, and the first error ends the resolution.", "quantifier": "every message with any definitions, oneofs and custom resolvers, every list of arguments, every evaluation and every resolver", "why_tests_cant": "An argument is overwritten only by a variable whose name has the same Go form, and only in expressions evaluated late.", "anchors": [{"file": "generator/templates/server.go.tmpl", "symbols": ["CustomResolverArguments", "setReturnValueByFieldCustomResolver", "setReturnValueByOneofFields"]}, {"file": "generator/code_generator.go", "symbols": ["Message.CustomResolverArguments", "newTypeDeclaresWithMessage"]}, {"file": "resolver/message.go", "symbols": ["UseAllNameReference", "ReferenceNames"]}, {"file": "resolver/def.go", "symbols": ["MarkUsed"]}, {"file": "grpc/federation/cel.go", "symbols": ["NewLocalValue", "LocalValue.do"]}]}
{"id": "C71", "title": "Texts of the proto files reach the generated code as written", "statement": "Every expression, name, message and attribute of the options is read back by the Go compiler from the generated file as a string with just this value, in its place; no text of a proto file becomes Go code, and the comments in the generated file end where the generator ends them.", "quantifier": "every list of definitions, arguments, fields, error details and enum attributes with any texts", "why_tests_cant": "Only rare characters break a literal or a comment, and a test would have to put each of them into each of the options.", "anchors": [{"file": "generator/templates/eval.go.tmpl", "symbols": ["declDef", "setCELArgument"]}, {"file": "generator/templates/server.go.tmpl", "symbols": ["setReturnValueByCEL"]}, {"file": "generator/templates/error_handler.go.tmpl", "symbols": ["PreconditionFailures", "LocalizedMessages"]}, {"file": "resolver/format.go", "symbols": ["ProtoFormat"]}, {"file": "generator/code_generator.go", "symbols": ["ProtoComment"]}]}
{"id": "C72", "title": "Times in expressions are Go's times", "statement": "Whatever functions an expression applies to a time (add, addDate, round, truncate, withLocation, utc, local), the instant, the clock, the zone and the daylight saving flag of the result are those that Go's time package gives for the same functions in the same locations, and a function fails only where a location does not exist.", "quantifier": "every time in every location, every chain of functions, every time zone database and local zone", "why_tests_cant": "Tests run in UTC or in one zone on one day; differences need a location with daylight saving time, a zone at Greenwich or a particular abbreviation.", "anchors": [{"file": "grpc/federation/cel/time.go", "symbols": ["GoTime", "GoLocation", "toTimeValue", "toLocationValue", "TimeLibrary"]}]}
{"id": "C73", "title": "Values in expressions do not change", "statement": "A value computed by an expression, or taken from a request, stays what it was, whatever functions later calls apply to it: appending to bytes or to a string gives a new value and leaves all others as they are.", "quantifier": "every sequence of calls on any values, every spare capacity of the arrays that hold bytes", "why_tests_cant": "Whether two values share an array depends on the spare capacity the runtime gave to it; the same expression is right for one length of the input and wrong for another.", "anchors": [{"file": "grpc/federation/cel/strings.go", "symbols": ["StringsLibrary", "appendBool", "appendInt", "appendQuote"]}, {"file": "grpc/federation/cel/time.go", "symbols": ["appendFormat"]}]}
{"id": "C74", "title": "Errors point to the place they are about", "statement": "An error about a proto file is shown with the line and column of what it is about: the definition, the string, the argument, the field or the method that the error names, if it is in the file. What is shown is never an unrelated place, and looking a place up does not stop the process.", "quantifier": "every file: declarations, options and values of any number and depth, strings and lists in any notation; every location the builders can make", "why_tests_cant": "There are more than a hundred kinds of locations, each with its own code, and every option can be written in several notations; tests look at a few errors in files in the usual notation.", "anchors": [{"file": "source/file.go", "symbols": ["NodeInfoByLocation", "nodeInfoByDef", "nodeInfoByFieldOneof", "nodeInfoByMethod", "nodeInfoByValidationExpr", "matchOption"]}, {"file": "source/location_builder.go", "symbols": ["MessageBuilder", "VariableDefinitionOptionBuilder"]}]}
{"id": "C75", "title": "Locations say what was asked of their builder", "statement": "The location of an error consists of exactly the parts that were asked of its builder, in the order of the calls; making other locations from the same builder, before or after, changes nothing about it, and making a location does not stop the process.", "quantifier": "every program of builder calls: any number of builders, calls in any order on any of them; every message definition that is resolved with a builder", "why_tests_cant": "A builder is a pointer and a closure, and calls share both; tests make one chain at a time and compare one location.", "anchors": [{"file": "source/location_builder.go", "symbols": ["LocationBuilder", "MessageBuilder", "EnvBuilder.WithVar", "ToLazyMessageBuilder", "ToLazyEnumBuilder"]}, {"file": "source/clone.go", "symbols": ["Clone"]}, {"file": "resolver/resolver.go", "symbols": ["resolveMessage", "resolveEnum", "resolveOneof", "resolveFields", "resolveCELPlugin"]}]}
{"id": "C76", "title": "The options of an accepted message are well typed", "statement": "Every expression of an accepted message is checked with exactly the variables that are visible where it stands, and has the type its place asks for: a condition is a bool, a text of an error is a string, a detail is a message, the value given back instead of a response is that response, a value converted to an enum is an enum with an alias, a map goes over a list, and a variable has the type of its expression; a message whose expressions are well typed in this sense is accepted.", "quantifier": "every message with any nesting of definitions, calls, handlers of errors, details, validations, maps and oneofs; every type checker of the expression language", "why_tests_cant": "Scopes and types compose to any depth and with any expression; tests check some messages, each with a few expressions.", "anchors": [{"file": "resolver/resolver.go", "symbols": ["resolveMessageCELValues", "resolveVariableDefinitionCELValues", "resolveMapExprCELValues", "resolveGRPCErrorCELValues", "resolveGRPCErrorDetailCELValues", "fromCELType", "resolveMapIterator", "resolveVariableDefinitions"]}, {"file": "resolver/cel.go", "symbols": ["ToCELType"]}, {"file": "resolver/context.go", "symbols": ["variableMap"]}]}
{"id": "C77", "title": "Every problem is reported at its place", "statement": "Every problem that a compilation finds is reported exactly once, with its text, its severity and its position, in the order of the positions; if one is an error, the linter fails and nothing is generated, and otherwise not; the line that is shown is the line of the position, and the mark stands below its column.", "quantifier": "all results and errors of the resolver and the compiler, all files, import paths and options, all lists of arguments of the linter", "why_tests_cant": "The reports depend on every mix of warnings, errors, files and positions, and on types of errors that tests do not provoke.", "anchors": [{"file": "validator/validator.go", "symbols": ["Validate", "ToValidationOutputByResolverResult", "toValidationOutput", "getFile", "ExistsError", "Format"]}, {"file": "resolver/error.go", "symbols": ["ExtractIndividualErrors"]}, {"file": "cmd/grpc-federation-linter/main.go", "symbols": ["main"]}, {"file": "lsp/server/validator.go", "symbols": ["validateText"]}, {"file": "generator/generator.go", "symbols": ["CreateCodeGeneratorResponse"]}]}
{"id": "C78", "title": "Diagnostics in the editor follow the text", "statement": "When the editor has stopped changing a document and all validations have finished, the diagnostics that the editor shows for it are those of its current text with the import paths of the server, whatever the validations of this and of other documents did at the same time.", "quantifier": "all sequences of opening, changing and closing documents, interleaved in any way with the steps of the validations in the background", "why_tests_cant": "Validations run as goroutines without order and share memory; a test sees one schedule.", "anchors": [{"file": "lsp/server/text_document_sync.go", "symbols": ["didChange"]}, {"file": "lsp/server/validator.go", "symbols": ["validateText"]}, {"file": "lsp/server/util.go", "symbols": ["getFile"]}, {"file": "lsp/server/handler.go", "symbols": ["Handler", "DidOpen", "DidClose"]}, {"file": "validator/validator.go", "symbols": ["applyOptions", "Validate"]}, {"file": "compiler/compiler.go", "symbols": ["Compile"]}]}
{"id": "C79", "title": "Go to definition leads to what the name refers to", "statement": "In the editor, going to the definition of a name (the type of a field, the message or the method of a federation definition, an alias, an import) opens the declaration this name refers to in the open file, and a declaration that the project contains is found.", "quantifier": "all open files with all imported files, all nestings of declarations, all names and all places of the cursor", "why_tests_cant": "A test asks for a few names in files where simple names are not repeated; which declaration is shown depends on all others of the file and on the names of all files.", "anchors": [{"file": "lsp/server/definition.go", "symbols": ["definition", "findImportFileDefinition", "findTypeDefinition", "findMethodDefinition", "typeAndFilePath", "getDeclaredTypeNames", "methodAndFilePath", "currentPackageName", "filePathFromFileDescriptorProto", "isMessageNameDefinition", "isTypeAlias", "isFieldType", "isMethodNameDefinition"]}]}
{"id": "C80", "title": "Completion proposes what may be written", "statement": "In the editor, completion at an expression proposes exactly the message's arguments and the variables defined before that place (of a fitting type, where one is expected), at a name the methods and messages that may be named there; and choosing a proposal leaves the proposed text in the document.", "quantifier": "all messages with all lists of definitions, arguments and types, all places, all texts of the node below the cursor", "why_tests_cant": "A test looks at a few places of one message; the proposals depend on all definitions and on the number of the one that is edited.", "anchors": [{"file": "resolver/candidates.go", "symbols": ["Candidates", "candidatesVariableName", "candidatesCELValue", "Unique", "Filter", "candidatesRequest", "requestFieldType", "candidatesMethodName", "candidatesMessageName", "candidatesFieldOption"]}, {"file": "lsp/server/completion.go", "symbols": ["completion"]}]}
{"id": "C81", "title": "The error handler is told which method failed", "statement": "When a call made anywhere in the messages of a federation service fails, the error handler given to the service is told the gRPC path of exactly the method that was called; the constants for these paths are declared once each, for called methods only, and in the same order in every generation.", "quantifier": "all schemas without cycles between messages, all names of called services and methods, all services with their methods and variables", "why_tests_cant": "The constants are collected by one search and used by another with its own spelling of names; a test generates a few services with a few names.", "anchors": [{"file": "generator/code_generator.go", "symbols": ["DependentMethods", "dependentMethods", "DependentMethodName", "fullServiceName"]}, {"file": "generator/templates/server.go.tmpl", "symbols": []}, {"file": "generator/templates/error_handler.go.tmpl", "symbols": []}]}
{"id": "C82", "title": "The editor knows on what the cursor stands", "statement": "For every position in a proto file, the location the language server finds is one location and the cursor is on a node of the file that this location names; a cursor on a text in an option of grpc-federation (or on the type of a field or an import) gives the location of exactly that text, and a cursor away from all of them gives none.", "quantifier": "all proto files (nesting of messages, enums, oneofs and services, order of declarations, options as blocks and as single fields, lists and repeated elements), all source positions of their nodes, all cursor positions", "why_tests_cant": "The search is a tree of loops with shared context; tests put the cursor on a few positions of two files whose options come first.", "anchors": [{"file": "source/file.go", "symbols": ["FindLocationByPos", "findMessageByPos", "findFieldByPos", "findOneofByPos", "findEnumByPos", "findMessageOptionByPos", "findDefByPos", "findCallExprByPos", "findMethodRequestByPos", "findServiceByPos", "findMethodByPos", "containsPos", "buildLocation"]}]}
{"id": "C83", "title": "Import warnings tell the truth", "statement": "For every file, an import of grpc.federation.file.import is reported as unused exactly when no option of grpc federation in the file names anything of its package, and another import is reported as used only for grpc federation exactly when these options name its package and the rest of the file does not.", "quantifier": "all files (any nesting of messages, definitions, errors and details, all kinds of expressions), all sets of known packages, all lists of imports", "why_tests_cant": "Whether an import is needed depends on every place where a name can be written; tests have one file with a name in the usual places, and a place that the search forgets is a place the tests forget too.", "anchors": [{"file": "resolver/resolver.go", "symbols": ["validateFileImport", "lookupPackageNameMapUsedInProtoDefinitionFromFile", "lookupPackageNameMapUsedInProtoDefinitionFromMessage", "lookupPackageNameMapRecursiveFromType", "lookupPackageNameMapUsedInGRPCFederationDefinitionFromFile", "lookupPackageNameMapUsedInGRPCFederationDefinitionFromMessage", "lookupPackageNameMapUsedInGRPCFederationDefinitionFromEnum", "lookupPackageNameMapFromVariableDefinitionSet", "lookupPackageNameMapFromGRPCError", "lookupPackageNameMapFromCELValue", "lookupPackageNameMapFromMessageArguments"]}, {"file": "grpc/federation/cel/conv.go", "symbols": ["ToIdentifiers", "toSelectorName"]}]}
{"id": "C84", "title": "Every method of the server answers with its response message", "statement": "In every project the resolver accepts, every method compiles, hands every field of its request to the resolver of its response message, and returns what comes of it: within the timeout if the method has one, converted to the declared response if the option names another message; an error is recorded and logged exactly once and comes without a message.", "quantifier": "all sets of methods with their rules, all requests and responses, all orders in which the map of methods is visited, all resolvers, conversions and limits", "why_tests_cant": "Whether a method works depends on the other methods, on which messages use its response, on the combination of its options and on the order of a map, which differs from run to run; a test generates one service once.", "anchors": [{"file": "resolver/resolver.go", "symbols": ["resolveMethodRule", "validateMethodResponse", "resolveMessageArgument", "lookupRequestMessageFromResponseMessage"]}, {"file": "resolver/method.go", "symbols": ["FederationResponse"]}, {"file": "generator/code_generator.go", "symbols": ["UseTimeout", "CustomResponse", "ResponseCastFuncName", "ReturnTypeArguments"]}, {"file": "generator/templates/server.go.tmpl", "symbols": ["WithTimeout", "ReturnTypeArguments"]}]}
{"id": "C85", "title": "Expressions log what they are given", "statement": "Every call of a log function in an expression is true and writes exactly one entry, with the level of the function, its message, the attributes added before by grpc.federation.log.add and those of its own arguments, in this order; and a reader of the entry finds at every place of a logged value, at any depth, what the value has there, whatever the order in which maps are visited.", "quantifier": "all values (any nesting of lists and maps, all kinds of keys), all orders of their maps, all sequences of calls, all attributes of the context", "why_tests_cant": "Values nest without bound, maps are visited in another order at each run, and keys of different types can be written alike; a test logs a few literals once.", "anchors": [{"file": "grpc/federation/cel/log.go", "symbols": ["log", "expandVal", "add", "debug", "info", "warn", "error", "CompileOptions"]}, {"file": "grpc/federation/log/context.go", "symbols": ["Logger", "AddAttrs"]}]}
{"id": "C86", "title": "Variables are described to expressions by messages protobuf accepts", "statement": "The message that describes the environment variables of a service to its expressions has exactly one field for each variable, in order, numbered from 1, with the type given in the option; and protobuf accepts it for all valid and different names of variables: its names and numbers are different, and every map has an entry with single keys and values and the name protobuf derives from the field.", "quantifier": "all lists of variables, all valid names, all types (kinds, lists and maps nested in any way)", "why_tests_cant": "Names and types are unbounded; whether a map is accepted depends on the letters of its name and on the other names, and the test data has a few names in one word.", "anchors": [{"file": "resolver/resolver.go", "symbols": ["messageToDescriptor", "toMapEntryName", "resolveEnvVar", "resolveEnvType", "envVarsToMessage", "dynamicMsgFileDescriptor"]}, {"file": "resolver/message.go", "symbols": ["NewMapType"]}, {"file": "resolver/cel.go", "symbols": ["RegisterFiles"]}]}
{"id": "C87", "title": "Random numbers are in their range, reproducible by their seed and fair", "statement": "In an expression int31n, int63n and intn of a bound fail exactly if the bound is not positive, otherwise the number is at least 0 and below the bound, and no number below it is preferred; sources with the same seed that are used alike give the same numbers, whatever is done to other sources in between; a generator shares the source it is made of; and comparing two sources or generators has no effect on them, and one is equal to itself.", "quantifier": "all sources of numbers, all bounds of 64 bits, all sequences of calls on any number of sources and generators", "why_tests_cant": "Bounds have 64 bits and fail beyond 31, runs interleave calls on several sources, and a comparison changes its operands, which shows only in the numbers drawn later.", "anchors": [{"file": "grpc/federation/cel/rand.go", "symbols": ["Source", "Rand", "Equal", "RandLibrary", "CompileOptions"]}]}

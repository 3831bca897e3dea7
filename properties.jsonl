{"id": "C01", "title": "A successful wait for a document version is truthful", "statement": "WaitDocumentVersion(uri, v) returns success only if, at some point no later than its return, the version most recently published for that same uri was >= v or was -1 (closed/on-disk marker). A wait that was cancelled reports the cancellation and never success.", "quantifier": "every history of Wait / Update / cancel operations on any number of documents and versions, in every interleaving of the waiting goroutines", "why_tests_cant": "the outcome depends on the interleaving of an unbounded number of waiters and updates; a test exercises one schedule", "anchors": ["pkg/lsp/versions.go: documentVersionQueue.Wait, Update, Get", "pkg/lsp/documents.go: WaitDocumentVersion"]}
{"id": "C02", "title": "No lost wake-up", "statement": "Once a version v' >= v (or -1) of a document has been published, no wait for version v of that document is blocked: every wait already pending is released by that very update and every later wait returns immediately until a lower version is published. Updates of other documents release nobody.", "quantifier": "every history and interleaving, every pair of versions, any number of pending waits per document and version", "why_tests_cant": "lost wake-ups show only in particular interleavings", "anchors": ["pkg/lsp/versions.go: documentVersionQueue.Wait, Update"]}
{"id": "C03", "title": "A wake-up is signalled at most once", "statement": "No sequence of operations makes the server signal (close) the same wake-up twice, which would panic the server.", "quantifier": "every history of Wait / Update operations, including repeated and out-of-order versions", "why_tests_cant": "a double close needs a specific repeated-version history", "anchors": ["pkg/lsp/versions.go: Update"]}
{"id": "C04", "title": "The published version of an open document never goes backwards", "statement": "Between opening and closing a document, whose versions the client only ever increases, the version the server publishes never decreases (otherwise requests that wait for a version already processed time out).", "quantifier": "every client history of open, change, save events on a document", "why_tests_cant": "needs histories mixing saves and changes", "anchors": ["pkg/lsp/server.go: DidSave, DidChange, DidClose", "pkg/lsp/documents.go: DidModifyFiles", "pkg/lsp/versions.go: Update"]}
{"id": "C05", "title": "A batch of file events drops exactly the events it cannot resolve", "statement": "When a batch of file events is processed, exactly the events whose document cannot be resolved are discarded; all the others are applied, once, in order.", "quantifier": "every batch of events and every set of unresolvable documents", "why_tests_cant": "depends on how many events of the batch are unresolvable and where they are", "anchors": ["pkg/lsp/documents.go: DidModifyFiles"]}
{"id": "C06", "title": "Incremental text synchronisation follows the protocol", "statement": "After a didChange notification the server's text of the document is the previous text with the notification's changes applied one after the other, each one to the result of the previous one.", "quantifier": "every document text and every list of content changes in one notification", "why_tests_cant": "multi-change notifications are an unbounded family; editors produce them only for multi-cursor edits", "anchors": ["pkg/lsp/documents.go: ChangedText, contentChangeEventsToDiffEdits"]}
{"id": "C07", "title": "Compilation results stay consistent", "statement": "After any number of compilations and invalidations there is at most one result per file path; a path is never recorded both as partially linked and as unlinked; and a path recorded as partially linked or unlinked has no stale fully linked result visible to lookups.", "quantifier": "every sequence of compilation outcomes (linked, partial, unlinked per path), failed compilations and invalidations", "why_tests_cant": "stale or duplicate entries need a particular order of outcomes for a path", "anchors": ["pkg/lsp/compiler.go: compileLocked, preCompile, postInvalidateHook", "pkg/lsp/cache.go"]}
{"id": "C08", "title": "Lookups return the outcome of the latest compilation", "statement": "For every path, the parse-result lookup returns the result reported for that path by the latest compilation that reported one since its last invalidation; and the linked-result lookups return it exactly when it was linked (or partially linked, for the lookup that allows it).", "quantifier": "every sequence of compilation outcomes and invalidations, every path", "why_tests_cant": "depends on full history per path", "anchors": ["pkg/lsp/cache.go: findResultByPathLocked, findResultOrPartialResultByPathLocked, findParseResultByPathLocked", "pkg/lsp/compiler.go: compileLocked"]}
{"id": "C09", "title": "Deleting a file removes its result and only its result", "statement": "Invalidating a file that will not be recompiled removes its result from all later lookups of linked results and changes no other file's results.", "quantifier": "every reachable state and path", "why_tests_cant": "frame conditions over all other paths", "anchors": ["pkg/lsp/compiler.go: postInvalidateHook"]}
{"id": "C10", "title": "Published diagnostics are the current diagnostics", "statement": "While a diagnostics stream is attached, after every flush the client's view (last report received per file) equals the server's current diagnostics for every file that ever had a report; nothing is published for a file that was neither reported on nor cleared since its last flush.", "quantifier": "every interleaving of add / clear / flush operations over any set of files", "why_tests_cant": "stale or missing reports need a particular history", "anchors": ["pkg/lsp/diagnostics.go: DiagnosticList.Add, Clear, DeleteRelated, Flush; DiagnosticHandler.Flush, ClearDiagnosticsForPath"]}
{"id": "C11", "title": "Diagnostics that exist when the client subscribes are delivered", "statement": "After a client attaches its diagnostics stream and a flush happens, it has received the current diagnostics of every file that has some.", "quantifier": "every history before and after the subscription", "why_tests_cant": "depends on operations that happened before the subscription", "anchors": ["pkg/lsp/diagnostics.go: DiagnosticHandler.Stream, Flush"]}
{"id": "C12", "title": "Clearing a file's diagnostics has a bounded effect", "statement": "Clearing a file leaves it with no diagnostics; on any other file it removes only diagnostics whose range is the related range of one of the cleared diagnostics; and files not named by related information are untouched.", "quantifier": "every handler state and path", "why_tests_cant": "frame condition over all files and related-information graphs", "anchors": ["pkg/lsp/diagnostics.go: ClearDiagnosticsForPath, DeleteRelated"]}
{"id": "C13", "title": "'Unchanged' answers are truthful", "statement": "If a query with a previous result id is answered 'unchanged' then the diagnostics are the same as when that id was handed out (given distinct clock readings).", "quantifier": "every history of modifications and queries", "why_tests_cant": "needs arbitrary history between the two queries", "anchors": ["pkg/lsp/diagnostics.go: getLocked, resetResultId"]}
{"id": "C14", "title": "Warning elevation follows the file's pragma", "statement": "A warning in a Werror category is reported as an error unless the file's debug pragma contains a field Wnoerror=<that category> or Wnoerror=all; other diagnostics keep their severity; and reporting the same diagnostic twice gives the same severity as long as the pragma does not change.", "quantifier": "every pragma string, category and severity", "why_tests_cant": "string-parsing decision over all pragma texts", "anchors": ["pkg/lsp/diagnostics.go: toProtocolDiagnostics", "pkg/lsp/pragmas.go"]}
{"id": "C15", "title": "The semantic token stream decodes to the tokens", "statement": "Decoding the delta-encoded token array per the protocol yields exactly the tokens computed for the document: same positions, lengths, types and modifier bits, in document order.", "quantifier": "every list of tokens sorted by position, in 32-bit arithmetic", "why_tests_cant": "delta encoding must be inverted for all positions including wrap-around", "anchors": ["pkg/lsp/semantic.go: semanticItems.Data"]}
{"id": "C16", "title": "Overwriting a file is crash safe", "statement": "If the process dies at any point while a formatted or generated file is being written, the original contents can be recovered: either the file itself still holds the complete original contents or a complete backup of it exists next to it, or the file holds the complete new contents.", "quantifier": "every crash point, every original and new content, every failure of any file operation (open, short or failed write, truncate, close), every file name", "why_tests_cant": "crash points and I/O failures cannot be enumerated by a unit test", "anchors": ["pkg/util/gofmt_helpers.go: OverwriteFile, backupFile"]}
{"id": "C17", "title": "The result of overwriting a file is truthful", "statement": "If overwriting reports success the file holds exactly the new contents, and a backup is left only if deleting it failed; if it reports an error the file holds exactly the original contents or a complete backup is left.", "quantifier": "every pattern of I/O failures", "why_tests_cant": "failure combinations", "anchors": ["pkg/util/gofmt_helpers.go: OverwriteFile"]}
{"id": "C18", "title": "Workspace symbol results are the best matches, ranked", "statement": "The symbol results are ordered by score, then name length, then name; there are at most 100; and no stored symbol with a strictly higher score is left out in favour of a lower one.", "quantifier": "every sequence of stored candidates", "why_tests_cant": "bounded-buffer insertion with binary search must be right for all orders", "anchors": ["pkg/x/symbols/symbols.go: symbolStore.Store, TooLow, Results"]}
{"id": "C19", "title": "A multi-word symbol query is a conjunction", "statement": "A query of several fields matches a symbol exactly if every field matches it; ^, ' and $ fields match by prefix, substring and suffix; a field with no upper-case letters matches regardless of case. The empty query matches nothing.", "quantifier": "every query and every symbol", "why_tests_cant": "string predicates over all inputs", "anchors": ["pkg/x/symbols/symbols.go: ParseQuery, SmartCase, MatchExact, ComboMatcher.Match"]}
{"id": "C20", "title": "Requests are handled in arrival order", "statement": "A request's handler starts only after every earlier non-streaming request has been replied to; streaming requests start in the same order but do not hold up later ones.", "quantifier": "every sequence of requests and every schedule of the handler goroutines", "why_tests_cant": "scheduling property", "anchors": ["pkg/lsprpc/handler.go: AsyncHandler"]}
{"id": "C21", "title": "Every request is eventually handled", "statement": "If every handler replies exactly once, no schedule leaves a request that can never start.", "quantifier": "every sequence of requests, every schedule", "why_tests_cant": "liveness over schedules", "anchors": ["pkg/lsprpc/handler.go: AsyncHandler"]}
{"id": "C22", "title": "Read-only requests cannot deadlock with an edit", "statement": "No schedule of concurrent read-only requests (code lens, document symbols, inlay hints, hover, definitions, ...) and edits leaves the server permanently blocked on the results lock.", "quantifier": "every set of concurrent requests and every schedule", "why_tests_cant": "a deadlock needs a writer to arrive inside a small window", "anchors": ["pkg/lsp/codelens.go: ComputeCodeLens", "pkg/lsp/symbols.go: DocumentSymbolsForFile", "pkg/lsp/inlayhints.go: computeImportHints", "pkg/lsp/generated.go: FindGeneratedDefinition", "pkg/lsp/compiler.go: Compile"]}
{"id": "C23", "title": "Commands release the locks they take", "statement": "Every execution path of a workspace command releases the server's cache lock before it returns.", "quantifier": "every command, every set of workspaces", "why_tests_cant": "the leaking path depends on the kind of workspaces open", "anchors": ["pkg/lsp/commands.go: ExecuteCommand"]}
{"id": "C24", "title": "Only requested code action kinds are returned", "statement": "With an empty 'only' list every supported kind is wanted; otherwise a kind is wanted exactly if it is listed or is a sub-kind (separated by a dot) of a listed kind; returned actions have wanted kinds only.", "quantifier": "every 'only' list and every action kind", "why_tests_cant": "string hierarchy over all kinds", "anchors": ["pkg/lsp/codeactions.go: requestedActionKinds, toProtocolCodeActions"]}
{"id": "C25", "title": "Organize-imports keeps every edit", "statement": "The merged organize-imports action contains every edit of the actions it replaces, for every document; actions of other kinds are returned unchanged and in order.", "quantifier": "every list of code actions", "why_tests_cant": "needs several documents or repeated texts", "anchors": ["pkg/lsp/codeactions.go: aggregateOrganizeImportsActions"]}
{"id": "C26", "title": "A deferred code action is resolved at most once", "statement": "Each deferred code action's computation runs at most once and never after its deadline has removed it; resolving an unknown, expired or already resolved action fails with an error and computes nothing.", "quantifier": "every interleaving of enqueue, resolve and timer expiry", "why_tests_cant": "race between timer and request", "anchors": ["pkg/lsp/refactor.go: pendingCodeActionManager.enqueue, resolve"]}
{"id": "C27", "title": "Inlining a message keeps field numbers and names unique", "statement": "If the field numbers and names of the enclosing message are distinct then they still are after the 'inline message fields' refactoring.", "quantifier": "every enclosing message and inlined message", "why_tests_cant": "depends on which kinds of fields and names occur", "anchors": ["pkg/lsp/refactor.go: inlineMessageFields, findNewUnusedFieldName"]}
{"id": "C28", "title": "Renumbering keeps field numbers unique", "statement": "After the 'renumber fields' refactoring the field numbers of the message are distinct.", "quantifier": "every message", "why_tests_cant": "depends on the mix of declarations", "anchors": ["pkg/lsp/refactor.go: renumberFields"]}
{"id": "C29", "title": "Generated names are unused", "statement": "A name chosen for a new message or field is not already used in its scope.", "quantifier": "every set of existing names", "why_tests_cant": "the bounded search can be exhausted", "anchors": ["pkg/lsp/refactor.go: findNewUnusedMessageName, findNewUnusedFieldName"]}
{"id": "C30", "title": "Names inserted by completion resolve to the completed type", "statement": "The name inserted for a type, prefixed by some enclosing scope of the place of use, is the full name of that type.", "quantifier": "every package of the file and every full name of the target type", "why_tests_cant": "string manipulation at component boundaries", "anchors": ["pkg/lsp/completion.go: relativeFullName"]}
{"id": "C31", "title": "Completion ranking is a consistent order", "statement": "The ranking of candidates by distance is a strict weak order: irreflexive, transitive, with transitive incomparability, so sorting is well defined; nearer scopes never rank below farther ones.", "quantifier": "every pair and triple of candidates", "why_tests_cant": "algebraic law", "anchors": ["pkg/lsp/completion.go: nameDistance, distanceSort, affineEntrySort"]}
{"id": "C32", "title": "Exactly one completion is preselected and client order is server order", "statement": "A non-empty completion list has exactly one preselected item, and sorting the items by their sort text reproduces the server's order.", "quantifier": "every list of items", "why_tests_cant": "depends on number of items and which were preselected", "anchors": ["pkg/lsp/completion.go: GetCompletions"]}
{"id": "C33", "title": "Column segmentation is a partition", "statement": "Splitting fields into alignment segments loses, duplicates and reorders no field.", "quantifier": "every list of fields and every cost function", "why_tests_cant": "optimisation result must be a partition for all inputs", "anchors": ["pkg/format/alg.go: splitSegmentedFields"]}
{"id": "C34", "title": "Formatting imports keeps the set of imported files", "statement": "The sorted import block imports exactly the files the source imports, each once, in lexical order, with the same public/weak modifiers.", "quantifier": "every list of import declarations", "why_tests_cant": "sorting plus deduplication over all orders", "anchors": ["pkg/format/formatter.go: writeFileHeader/sort imports"]}
{"id": "C35", "title": "Formatting preserves string literal values", "statement": "A string literal printed by the formatter denotes the same bytes as the source literal.", "quantifier": "every string literal", "why_tests_cant": "quote and escape combinations", "anchors": ["pkg/format/formatter.go: writeStringLiteral"]}
{"id": "C36", "title": "Formatting preserves comment boundaries", "statement": "A comment moved inline by the formatter is still one comment with the same text.", "quantifier": "every comment text", "why_tests_cant": "comment terminators inside comment text", "anchors": ["pkg/format/formatter.go: writeInlineComments"]}
{"id": "C37", "title": "Document URIs and import paths correspond one to one", "statement": "At every moment URIToPath and PathToURI are inverse to each other: a known URI maps to a path that maps back to it.", "quantifier": "every sequence of file events", "why_tests_cant": "needs rename/duplicate-path histories", "anchors": ["pkg/lsp/resolver.go: UpdateURIPathMappings, PathToURI, URIToPath"]}
{"id": "C38", "title": "Prefix-based workspace lookup picks the enclosing workspace", "statement": "A document is served by a workspace only if it lies inside that workspace's folder.", "quantifier": "every set of workspace folders and document paths, every map iteration order", "why_tests_cant": "depends on folder names that are string prefixes of one another and on map order", "anchors": ["pkg/lsp/server.go: CacheForURI"]}
{"id": "C39", "title": "The go_package directive is found", "statement": "For a file whose go_package option is on a line of its own in canonical form, the quick scan returns exactly the import path in it (without the ;name part).", "quantifier": "every import path and every preceding and following text", "why_tests_cant": "string scanning over all files", "anchors": ["pkg/lsp/resolver.go: FastLookupGoModule"]}
{"id": "C40", "title": "Byte string literals printed for descriptors round-trip", "statement": "The literal printed for a bytes value denotes exactly that value.", "quantifier": "every byte string", "why_tests_cant": "escape rules over all byte strings", "anchors": ["pkg/format/protoprint/print.go: quotedBytes"]}
{"id": "C41", "title": "Text string literals printed for descriptors round-trip", "statement": "The literal printed for a string value denotes exactly that value, valid UTF-8 or not.", "quantifier": "every string", "why_tests_cant": "escape and UTF-8 rules", "anchors": ["pkg/format/protoprint/print.go: quotedString"]}
{"id": "C42", "title": "Printed reserved ranges denote the descriptor's ranges", "statement": "The reserved statement printed for a message or enum reserves exactly the numbers reserved in the descriptor.", "quantifier": "every range", "why_tests_cant": "off-by-one conventions differ between messages and enums", "anchors": ["pkg/format/protoprint/print.go: printReservedRanges, elementAddrs.at"]}
{"id": "C43", "title": "Qualified names printed for descriptors resolve", "statement": "The shortened name printed for a type, prefixed by some enclosing scope of the reference, is the type's full name, and protobuf's scoping rules resolve it to that type; with forced qualification it is the full name with a leading dot.", "quantifier": "every package, scope, and full name", "why_tests_cant": "string manipulation over all names", "anchors": ["pkg/format/protoprint/print.go: qualifyElementName"]}
{"id": "C44", "title": "Source locations of different elements are never confused", "statement": "Two elements share a source-location key only if their paths are identical; looking up a path gives the locations recorded for that path, the first one first.", "quantifier": "every pair of paths of 32-bit integers", "why_tests_cant": "injectivity of an encoding", "anchors": ["pkg/format/protoprint/internal/source_info.go: asMapKey, PutIfAbsent, Add, Get"]}
{"id": "C45", "title": "Dependencies are generated before dependents", "statement": "The order computed for compilation results contains each file once, exactly the reachable files, and every file after all its imports, for acyclic imports.", "quantifier": "every import graph", "why_tests_cant": "graph property", "anchors": ["sdk/util/transform.go: TopologicalSort"]}
{"id": "C46", "title": "Restoring original names is complete", "statement": "After restoring, every synthesised file and every dependency on it carries the original name.", "quantifier": "every set of descriptors and mappings", "why_tests_cant": "depends on mapping combinations", "anchors": ["sdk/util/transform.go: RestoreDescriptorNames"]}
{"id": "C47", "title": "Generated files are written only next to their sources", "statement": "Code generation writes only into directories of the requested documents and reports every other output as an error.", "quantifier": "every set of documents and every generator response", "why_tests_cant": "depends on generator output names", "anchors": ["pkg/lsprpc/handler.go: unknownHandler.doGenerate"]}
{"id": "C48", "title": "Go names derived from proto names are valid identifiers", "statement": "For every proto identifier path the derived Go camel-case name contains only letters, digits and underscores and starts with an upper-case letter; the sanitised name is a Go identifier that is not a keyword.", "quantifier": "every name", "why_tests_cant": "string function over all inputs", "anchors": ["pkg/x/protogen/strs/strs.go: GoCamelCase, GoSanitized"]}
{"id": "C49", "title": "The token under the cursor is found", "statement": "For position-sorted, non-overlapping tokens, the lookup returns the token that contains the position if there is one.", "quantifier": "every token list and position", "why_tests_cant": "early-exit scan must be right for all layouts", "anchors": ["pkg/lsp/search.go: findNarrowestSemanticToken"]}
{"id": "C50", "title": "References are reported once each", "statement": "Finding references reports every reference found in any file and no reference twice, under every schedule of the concurrent per-file searches.", "quantifier": "every set of files and every schedule", "why_tests_cant": "concurrency", "anchors": ["pkg/lsp/search.go: findNodeReferences"]}
{"id": "C51", "title": "Workspace-wide searches see every current result", "statement": "A search over the whole workspace visits every file whose linked result (full or partial) is current, and visits nothing else.", "quantifier": "every history of compilations and invalidations", "why_tests_cant": "depends on the history of each file", "anchors": ["pkg/lsp/cache.go: rangeAllDescriptors/findAllDescriptorsByPrefixLocked", "pkg/lsp/compiler.go: compileLocked"]}
{"id": "C52", "title": "Pragmas are those of the latest compilation", "statement": "The pragmas known for a file are those of its most recently reported result.", "quantifier": "every history of compilations and invalidations", "why_tests_cant": "history property", "anchors": ["pkg/lsp/compiler.go: compileLocked", "pkg/lsp/pragmas.go"]}
{"id": "C53", "title": "Searching names by prefix is exact", "statement": "Searching the descriptors of a file set by a name prefix returns exactly the declared names with that prefix, whether the prefix is relative to the package, a full name, or a full name with a leading dot.", "quantifier": "every set of files, names and every prefix", "why_tests_cant": "string prefix logic over all names", "anchors": ["pkg/lsp/cache.go: FindAllDescriptorsByPrefix, FindAllDescriptorsByQualifiedPrefix"]}
{"id": "C54", "title": "Tokens of a string literal with escapes cover it exactly", "statement": "For a string literal that contains escape sequences, the tokens reported for it cover every character of the literal exactly once, and each escape sequence is exactly one token of its own.", "quantifier": "every literal and every set of escape sequences in it", "why_tests_cant": "off-by-one conditions depend on where the escapes are", "anchors": ["pkg/lsp/semantic.go: inspectStringLiteralWithEscapeSequences"]}
{"id": "C55", "title": "Comment tokens cover the comment", "statement": "The tokens reported for a comment cover exactly its characters, for single-line, multi-line and pragma comments.", "quantifier": "every comment text and position", "why_tests_cant": "depends on line structure and lengths", "anchors": ["pkg/lsp/semantic.go: mkcomments, multilineComment"]}
{"id": "C56", "title": "Reports reach the client in order, at most once", "statement": "The diagnostics reports a workspace publishes are a subsequence of those it flushed, in flush order; while the workspace is open none is lost.", "quantifier": "every interleaving of flushes, sending, receiving, attaching and closing", "why_tests_cant": "needs all interleavings of three goroutines", "anchors": ["pkg/lsp/diagnostics.go: Flush, Stream, StreamWorkspaceDiagnostics", "pkg/lsp/server.go: cacheInitLocked, cacheDestroyLocked"]}
{"id": "C57", "title": "A flush always completes", "statement": "Publishing diagnostics always terminates, also when the workspace is closed or re-indexed meanwhile.", "quantifier": "every interleaving of flushes, sending, receiving, attaching and closing", "why_tests_cant": "the blocking interleaving needs a close between two sends", "anchors": ["pkg/lsp/diagnostics.go: Flush, Stream", "pkg/lsp/server.go: cacheInitLocked, cacheDestroyLocked", "pkg/lsp/commands.go: ExecuteCommand (reindexWorkspaces)"]}
{"id": "C58", "title": "Extracting fields loses nothing", "statement": "Extracting fields into a new message keeps every field exactly once, either in the parent or in the new message, with its name and label; the parent's names and numbers stay distinct, and the new message is numbered 1..n.", "quantifier": "every message body and every non-empty selection of its plain fields", "why_tests_cant": "combinatorial in positions, numbers and names", "anchors": ["pkg/lsp/refactor.go: extractFields, findNewUnusedFieldName"]}
{"id": "C59", "title": "Extraction is offered for sibling fields", "statement": "The extract action is offered whenever the selection consists of fields of one message, and whatever is offered consists of wholly selected fields of one message.", "quantifier": "every sequence of syntax paths in the selection", "why_tests_cant": "the failing case depends on the number of selected fields", "anchors": ["pkg/lsp/refactor.go: extractFields"]}
{"id": "C60", "title": "Simplifying repeated options preserves meaning", "statement": "Simplifying repeated options collects all values of the field, in their order, into one array and changes nothing else.", "quantifier": "every scope: any mixture of arrays and single values inside and outside the container option", "why_tests_cant": "the outcome depends on which mention comes first and on the container's contents; the repository's test covers one shape", "anchors": ["pkg/lsp/refactor.go: collectRepeatedOptionRefs, calcSimplifyRepeatedOptionsEdits"]}
{"id": "C61", "title": "Accepting a completion replaces exactly the word", "statement": "Applying the edit of a completion item turns the line into itself with the partial word (before and after the cursor) replaced by the completed word.", "quantifier": "every line, cursor position inside a word and completed word", "why_tests_cant": "column arithmetic in two units", "anchors": ["pkg/lsp/completion.go: completeTypeNamesFromList, completeImports, completeEnumValues, completePackageNames, findPartialNames", "pkg/lsp/range.go: adjustColumn"]}
{"id": "C62", "title": "Block comments keep their text and reformatting them is idempotent", "statement": "A comment written on its own line keeps every non-blank character in order and stays one comment; formatting the result again, at any indentation, changes nothing.", "quantifier": "every comment text and indentation", "why_tests_cant": "depends on the indentation and prefixes of all lines of the comment", "anchors": ["pkg/format/formatter.go: writeComment, computeIndent, unindent"]}
{"id": "C63", "title": "Formatting keeps the order of repeated file options", "statement": "Formatting sorts file options by name, standard ones first, and keeps the values of an option given several times in their order.", "quantifier": "every list of file options", "why_tests_cant": "sort.Slice is only stable by accident for small inputs", "anchors": ["pkg/format/formatter.go: writeFileHeader"]}
{"id": "C64", "title": "An import path resolves to the document that has it", "statement": "If a readable document of the workspace is known by a path, importing the path yields that document, whatever Go modules exist, and asking again yields the same document.", "quantifier": "every state of the resolver's maps, environment and sequence of lookups", "why_tests_cant": "depends on the order of four sources and on what earlier lookups recorded", "anchors": ["pkg/lsp/resolver.go: FindFileByPath, findFileByPathLocked, checkWellKnownImportPath, checkFS, checkGoModule, checkGlobalCache"]}
{"id": "C65", "title": "The URI of a resolved path denotes the document that was served", "statement": "After a path was resolved, converting the resolved path to a URI gives the document (file, built-in file, synthesized file) whose contents were served.", "quantifier": "every environment and sequence of lookups", "why_tests_cant": "needs all combinations of sources and cached entries", "anchors": ["pkg/lsp/resolver.go: PathToURI, findFileByPathLocked, checkGlobalCache, checkGoModule"]}
{"id": "C66", "title": "Imports relative to the importing file work", "statement": "An import that names a file below the importing file's directory, and is not a known path, is served from that file.", "quantifier": "every file layout, environment and state", "why_tests_cant": "depends on the file layout", "anchors": ["pkg/lsp/resolver.go: translatePathLocked, FindFileByPath"]}
{"id": "C67", "title": "The import path of a file follows from its place in the Go module", "statement": "A file in a Go module is known by the module path followed by its path in the module directory; different files get different paths.", "quantifier": "every module directory, module path, file and text", "why_tests_cant": "path arithmetic over all layouts", "anchors": ["pkg/lsp/resolver.go: LookupGoModule", "pkg/lsp/golang.go: ImplicitGoPackagePath"]}
{"id": "C68", "title": "A suffix-matched import candidate lies where the paths agree longest", "statement": "The candidate proposed for an import is the import laid over the importing file's directory where they agree, at the place where they agree in most components.", "quantifier": "every import and file name", "why_tests_cant": "needs repeated directory names in particular positions", "anchors": ["pkg/lsp/resolver.go: FindSuffixMatchedPath"]}
{"id": "C69", "title": "Folder changes take effect", "statement": "After a workspace-folder notification the server serves the previous folders without the removed ones, plus the added ones; reindexing keeps the folders and replaces every cache; after shutdown there are none.", "quantifier": "every history of initialization, folder changes, reindexing and shutdown", "why_tests_cant": "depends on the combination of added, removed and known folders", "anchors": ["pkg/lsp/server.go: Initialize, DidChangeWorkspaceFolders, cacheInitLocked, cacheDestroyLocked, shutdown", "pkg/lsp/commands.go: protols/reindexWorkspaces"]}
{"id": "C70", "title": "Background tasks end with their workspace", "statement": "At every moment the diagnostics of exactly the served workspaces are being published: each served workspace has its background tasks, and no other tasks are running.", "quantifier": "every history of initialization, folder changes, reindexing and shutdown", "why_tests_cant": "leaks depend on histories", "anchors": ["pkg/lsp/server.go: cacheInitLocked, cacheDestroyLocked"]}
{"id": "C71", "title": "Reindexing keeps what is in the editor", "statement": "After reindexing, exactly the documents that were open are open, with their text and version.", "quantifier": "every set of open documents and every state of the disk", "why_tests_cant": "depends on which documents are saved or exist on disk", "anchors": ["pkg/lsp/commands.go: protols/reindexWorkspaces"]}
{"id": "C72", "title": "The set of workspaces is never read while it changes", "statement": "No request iterates over the set of workspaces while another one modifies it (which would stop the server).", "quantifier": "every set of concurrent requests and every schedule", "why_tests_cant": "concurrency", "anchors": ["pkg/lsp/server.go: CacheForURI, CacheForWorkspace, Symbol, shutdown, DidChangeConfiguration, DidChangeWorkspaceFolders", "pkg/lsp/commands.go: protols/reindexWorkspaces"]}
{"id": "C73", "title": "Document links lead to the imported files and change nothing", "statement": "Each import that can be resolved gets a link to the file it resolves to, no other links are returned, and the request does not change the compiled file.", "quantifier": "every list of imports and dependencies", "why_tests_cant": "needs an implicit dependency in a particular position and a shared array", "anchors": ["pkg/lsp/links.go: ComputeDocumentLinks", "pkg/lsp/inlayhints.go: computeImportHints"]}
{"id": "C74", "title": "Import hints are right and can be accepted", "statement": "A hint is shown for exactly the imports that resolve to another path; what is shown inside the quotes completes the import to that path; accepting the hint replaces the import by that path.", "quantifier": "every list of imports and dependencies and every line layout", "why_tests_cant": "column arithmetic over all layouts", "anchors": ["pkg/lsp/inlayhints.go: computeImportHints", "pkg/lsp/range.go: adjustColumns"]}
{"id": "C75", "title": "Edits and generation touch only files of the workspace", "statement": "A file is accepted for renaming, code lenses and generation exactly if it is a real, regular, readable file inside the workspace folder that does not come from the module cache or the built-in files.", "quantifier": "every file and workspace folder", "why_tests_cant": "depends on folder names that are prefixes of one another", "anchors": ["pkg/lsp/resolver.go: IsRealWorkspaceLocalFile"]}
{"id": "C76", "title": "Go to generated definition looks up the declared name", "statement": "For every message, enum, enum value, field, extension, service and method the declaration that is looked up in the generated Go code is the one the Go generators declare for it.", "quantifier": "every element and every name", "why_tests_cant": "naming rules over all names and nestings", "anchors": ["pkg/lsp/generated.go: FindGeneratedDefinition, GoIdent, lookupObjDecl"]}
{"id": "C77", "title": "Generated files belong to the document", "statement": "The generated Go files found for a document are those in its Go package that were generated from it.", "quantifier": "every package directory, comment layout and document", "why_tests_cant": "depends on comment groups and on an inverted condition", "anchors": ["pkg/lsp/golang.go: FindGeneratedFiles, ParseGeneratedPreamble"]}
{"id": "C78", "title": "The embedded descriptor of a generated file is found", "statement": "The variable looked up for the raw descriptor in a generated Go file is the one the generator declares for that source path.", "quantifier": "every source path", "why_tests_cant": "string mapping over all paths", "anchors": ["pkg/lsp/golang.go: SynthesizeFromGoSource"]}
{"id": "C79", "title": "Imports are resolved through generated code only if unambiguous", "statement": "An import is resolved through the Go imports of generated files exactly if one imported package ends with the import's directory; the result does not depend on the order or number of files.", "quantifier": "every set of Go imports and every import path", "why_tests_cant": "all combinations of import paths", "anchors": ["pkg/lsp/generated.go: tryResolvePathToGeneratedImport"]}
{"id": "C80", "title": "The Go package option is understood", "statement": "The option path;name gives the path and the name, a path alone leaves the name open, a bare name is the name of the package at the path implied by the document's place, and without an option that path is used with any name.", "quantifier": "every option text and every place of the document", "why_tests_cant": "case distinction over all texts", "anchors": ["pkg/lsp/golang.go: FindGeneratedFiles"]}
{"id": "C81", "title": "The printer's writer loses nothing but blanks", "statement": "The text written is the concatenation of all writes, except that one trailing blank is left out where the next write starts with a semicolon or comma and at the very end; each write reports all its bytes.", "quantifier": "every sequence of writes", "why_tests_cant": "state carried between writes", "anchors": ["pkg/format/protoprint/print.go: writer.Write"]}
{"id": "C82", "title": "Printed comments are comments", "statement": "A comment is printed as line comments or as one block comment that ends at its last mark; every line of the comment appears, up to one added blank in front and blanks at the end; printing never fails.", "quantifier": "every comment text, indentation, preference and writer state", "why_tests_cant": "the text of a comment is arbitrary", "anchors": ["pkg/format/protoprint/print.go: printComment, indent, maybeIndent"]}
{"id": "C83", "title": "Workspace-local descriptors are the files of the workspace", "statement": "The workspace-local descriptors returned by the SDK's driver are, in dependency order, exactly those of existing files below the workspace folder.", "quantifier": "every set of compiled files, every workspace folder and every current directory", "why_tests_cant": "depends on directories and the process environment", "anchors": ["sdk/driver/driver.go: Driver.sortAndFilterResults"]}
{"id": "C84", "title": "Go packages are inferred consistently", "statement": "A file without go_package gets that of the files in its directory with the same proto package, or its directory if there is none; if the directory mixes packages an error is reported; the order of the files does not matter.", "quantifier": "every list of files", "why_tests_cant": "depends on all combinations of files and their order", "anchors": ["sdk/plugin/protogen.go: New"]}
{"id": "C85", "title": "Completing a go_package keeps its name", "statement": "A go_package that is a bare name is completed with the file's directory as import path and keeps its package name.", "quantifier": "every directory and name", "why_tests_cant": "string function over all inputs", "anchors": ["sdk/plugin/protogen.go: New (sanitizePkg)"]}
{"id": "C86", "title": "Creating the generator plugin does not crash", "statement": "For every set of documents to generate, creating the plugin returns a plugin or an error.", "quantifier": "every import closure, every set of targets and every mapping of names", "why_tests_cant": "depends on how synthesised names combine", "anchors": ["sdk/plugin/protogen.go: New", "sdk/util/transform.go: RestoreDescriptorNames"]}
{"id": "C87", "title": "Every diagnostic of a compilation is reported", "statement": "Compiling with the SDK's driver gives one message per diagnostic with its severity, line and text; warnings and errors show the source line with the range highlighted; the error flag is set exactly if there is an error; compiling never crashes.", "quantifier": "every document content and every list of diagnostics", "why_tests_cant": "positions at the ends of lines and files", "anchors": ["sdk/driver/driver.go: Driver.Compile"]}
{"id": "C88", "title": "Code is generated for the files below the search directories", "statement": "With the default strategy code is generated exactly for the workspace's files below one of the search directories.", "quantifier": "every set of files, every working directory and every list of search directories", "why_tests_cant": "path comparison over all names", "anchors": ["sdk/codegen/generator.go: GenerateCode"]}
{"id": "C89", "title": "Generated files are placed next to their sources", "statement": "The path of a generated file is in the directory of the source file it was generated from.", "quantifier": "every set of source files and every output name", "why_tests_cant": "depends on go_package and import paths", "anchors": ["sdk/codegen/generator.go: GenerateCode"]}
{"id": "C90", "title": "A generated file can be read", "statement": "Reading a generated file through its reader interface to the end gives its content.", "quantifier": "every content and every choice of buffer sizes", "why_tests_cant": "contract over sequences of calls", "anchors": ["sdk/codegen/generator.go: GeneratedFile.Read"]}
{"id": "C91", "title": "Running an external plugin ends", "statement": "Running an external generator plugin ends with the plugin's complete response or an error, whatever the size of request and response.", "quantifier": "every request, every pipe capacity and every interleaving of the two processes", "why_tests_cant": "concurrency with bounded buffers", "anchors": ["sdk/codegen/generators/external/generator.go: extGenerator.Generate"]}
{"id": "C92", "title": "Searching finds the sources", "statement": "Searching directories finds each .proto file below them once, except in vendor, node_modules and bazel directories and in directories marked DO_NOT_BUILD_HERE.", "quantifier": "every directory tree and every list of roots", "why_tests_cant": "recursion with early exit over all trees", "anchors": ["pkg/sources/search.go: SearchDirs"]}
{"id": "C93", "title": "The innermost nodes around a selection are found", "statement": "For a selected range the search returns exactly the declarations of greatest depth that the walk over the range reaches, in source order, and reports nothing found exactly if there is none.", "quantifier": "every syntax tree, every range filter and every set of recorded kinds", "why_tests_cant": "the list is pruned while walking; must be right for all trees", "anchors": ["pkg/lsp/search.go: visitEnclosingRange, DefaultEnclosingRangeVisitor, findPathsEnclosingRange"]}
{"id": "C94", "title": "The innermost declaration at a position is found", "statement": "For a position the search returns the deepest declaration that holds the position; declarations hold the positions from their first character up to their closing token.", "quantifier": "every syntax tree and every position", "why_tests_cant": "all trees and positions", "anchors": ["pkg/lsp/search.go: findPathIntersectingToken"]}
{"id": "C95", "title": "A rename is refused unless the new name can be used", "statement": "Renaming accepts a new name only if it is an identifier and nothing is called that in the symbol's scope; the symbol stays in its scope and gets exactly that name.", "quantifier": "every symbol, every new name and every set of existing names", "why_tests_cant": "the names a user may type are unbounded", "anchors": ["pkg/lsp/rename.go: Rename"]}
{"id": "C96", "title": "A rename changes every use and nothing else", "statement": "The edits of a rename, applied to the documents, give exactly the documents in which every use of the symbol has the new name, with qualifications kept; all edits are in workspace documents and if one use cannot be edited nothing is changed.", "quantifier": "every workspace, every arrangement of uses, every order of references", "why_tests_cant": "ranges over all documents and positions", "anchors": ["pkg/lsp/rename.go: Rename"]}
{"id": "C97", "title": "After a rename references mean the renamed symbol", "statement": "After the edits of a rename every reference to the symbol resolves to it under its new name, and references to other symbols resolve as before.", "quantifier": "every set of definitions, every scope of a reference and every new name", "why_tests_cant": "name resolution over all nestings", "anchors": ["pkg/lsp/rename.go: Rename"]}
{"id": "C98", "title": "What prepareRename offers, rename does", "statement": "PrepareRename offers the symbol's name exactly for declarations whose document is in the workspace and parses; where nothing is offered rename fails; where it is offered rename fails only for a bad or taken name, an unknown source or a reference that cannot be edited.", "quantifier": "every symbol, workspace and new name", "why_tests_cant": "the two requests are separate code paths", "anchors": ["pkg/lsp/rename.go: PrepareRename, canRename, Rename"]}
{"id": "C99", "title": "References to a package are found by component", "statement": "Asking for references at a component of a package name returns, for each file whose package starts with the same components (at the last component: whose package is the same), the range of these components, once per file; hovering shows the same name and range; where a reference is found from either side it is found from the other.", "quantifier": "every set of files, every package name and every component", "why_tests_cant": "names that share a textual prefix, any nesting", "anchors": ["pkg/lsp/packages.go: TryFindPackageReferences, FindPackageNameRefs, tryHoverPackageNode"]}
{"id": "C100", "title": "References are complete and the declaration is optional", "statement": "References to a symbol are the declaration, first and only if it is asked for, and one location for every reference in a document with a URI; for a package, leaving out the declaration leaves out exactly the document asked in.", "quantifier": "every list of references, every set of documents", "why_tests_cant": "any number of documents and references", "anchors": ["pkg/lsp/references.go: FindReferences, FindReferenceLocationsForTypeDescriptor"]}
{"id": "C101", "title": "The outline shows the file", "statement": "The document outline shows every declaration of the file, inside the declarations that contain it, in the order of the source, once, with ranges nested as the protocol requires.", "quantifier": "every file of any nesting", "why_tests_cant": "recursive structure of any depth", "anchors": ["pkg/lsp/symbols.go: documentSymbolsForFileLocked, messageSymbols, enumSymbols, extendSymbols, serviceSymbols"]}
{"id": "C102", "title": "Code lenses offer to generate workspace files", "statement": "Lenses are offered exactly for files of the workspace without the nogenerate pragma: for the file, for the files of its package if it has one, and for the workspace; only files of the workspace are concerned.", "quantifier": "every set of files and packages", "why_tests_cant": "any number of files", "anchors": ["pkg/lsp/codelens.go: ComputeCodeLens"]}
{"id": "C103", "title": "Base64 input is decoded", "statement": "The decode command given a message in standard or URL base64, padded or not, with white space around it, decodes exactly that message.", "quantifier": "every message, every encoding, all surrounding white space", "why_tests_cant": "all byte strings; text that is valid in several encodings", "anchors": ["pkg/protols/commands/decode.go: readMaybeBase64AndTrim, looksLikeBase64"]}
{"id": "C104", "title": "Binary input is decoded as it is", "statement": "The decode command given the bytes of a message decodes exactly these bytes; it reports missing input exactly if there is only white space.", "quantifier": "every byte string", "why_tests_cant": "all byte strings", "anchors": ["pkg/protols/commands/decode.go: readMaybeBase64AndTrim"]}
{"id": "C105", "title": "The message type is chosen predictably", "statement": "A full name always selects that message; otherwise all messages with that simple name are meant, otherwise all whose full name contains the text ignoring case; one is used, of several the user chooses; the order of files does not matter; for an unknown type the wire format is shown.", "quantifier": "every list of messages and every text", "why_tests_cant": "all names, all orders", "anchors": ["pkg/protols/commands/decode.go: BuildDecodeCmd"]}
{"id": "C106", "title": "Files are formatted independently", "statement": "The fmt command formats all named files concurrently; when it is done each file that parses is formatted and no other file has changed, whatever the schedule and however often a file is named.", "quantifier": "all sets of files, all schedules", "why_tests_cant": "all interleavings of the goroutines", "anchors": ["pkg/protols/commands/fmt.go: BuildFmtCmd", "pkg/format/format.go: FileInPlace", "pkg/util/gofmt_helpers.go: OverwriteFile"]}
{"id": "C107", "title": "Imports link to the files they resolve to", "statement": "Each request for document links returns one link for each complete import whose file has a URI, from its literal to that file, whatever was requested before; the request changes nothing and does not crash.", "quantifier": "every list of imports and recorded dependencies, every history of requests", "why_tests_cant": "histories of requests that share one mutable list", "anchors": ["pkg/lsp/links.go: ComputeDocumentLinks", "pkg/lsp/inlayhints.go: computeImportHints"]}
{"id": "C108", "title": "Import hints show and apply the resolved path", "statement": "A hint is shown exactly for imports that resolve to another path; shown inside the literal it makes the literal read as that path, otherwise it is that path; accepting it makes the literal that path, after which no hint is shown.", "quantifier": "every import, path, line and history of requests", "why_tests_cant": "all paths and positions", "anchors": ["pkg/lsp/inlayhints.go: computeImportHints"]}
{"id": "C109", "title": "Formatting does not lose text", "statement": "A formatting request is answered for the document's current text: with no edits if it does not parse or opts out, otherwise with edits to its formatted form.", "quantifier": "every schedule of changes, compilations and requests", "why_tests_cant": "interleavings of the request's reads with changes", "anchors": ["pkg/lsp/format.go: FormatDocument", "pkg/lsp/documents.go: LatestDocumentContentsWellFormed, GetMapper, DidModifyFiles"]}
{"id": "C110", "title": "Formatting writes back the same file", "statement": "The text produced by formatting a file reads as that file: every word of every declaration is written, in the declared order and spelled as in the source (quotes of string literals apart); only optional separators and brackets may be added or left out, file options and imports are gathered at the front and a repeated import may be dropped, and the text is lexically complete.", "quantifier": "every well-formed syntax tree with any comments and white space, every way to sort imports and options, every column grouping decision", "why_tests_cant": "trees are unbounded and the writer's state (pending blanks, indentation, compact mode) makes every token depend on what came before", "anchors": ["pkg/format/formatter.go: formatter, writeFile, writeField, writeCompactOptions, writeMessageLiteral, writeArrayLiteral, writeCompountIdentForFieldName, writeInline, writeStart, writeLineEnd", "pkg/format/column_format.go: columnFormatElements"]}
{"id": "C111", "title": "Formatting a valid file succeeds", "statement": "Formatting a file without syntax errors neither crashes nor reports an error.", "quantifier": "every well-formed syntax tree", "why_tests_cant": "the error depends on the balance of indentation over the whole file", "anchors": ["pkg/format/formatter.go: P, writeCompoundStringLiteral, Out, In", "pkg/format/column_format.go: columnFormatElements"]}
{"id": "C112", "title": "Formatting keeps every comment", "statement": "Every comment of the source is in the formatted text, once.", "quantifier": "every well-formed syntax tree with any comments", "why_tests_cant": "comments may be attached to any token", "anchors": ["pkg/format/formatter.go: writeStart, writeInline, writeBodyEnd, writeLineEnd, writeOptionName, writeRPC, writeNode", "pkg/format/column_format.go: columnFormatElements"]}
{"id": "C113", "title": "Source printed for a descriptor declares what the descriptor declares", "statement": "The text printed for a file descriptor without source information parses, and its messages, fields, oneofs, extensions, enums, services, options, defaults, ranges and reservations, with every name resolved where it stands, are those of the descriptor.", "quantifier": "every file descriptor, every sort of its elements, qualified names forced or not", "why_tests_cant": "descriptors are unbounded and nested; the printer skips elements it has printed elsewhere (groups, oneof fields, extensions of one message, reserved runs)", "anchors": ["pkg/format/protoprint/print.go: printFile, printMessageBody, printField, printExtensions, printOneOf, printEnum, printService, printOptionsLong, printOptionsShort, extensionRanges, reservedRanges", "pkg/format/protoprint/message_literal.go: messageLiteralToString", "pkg/format/sort.go: SortElements", "pkg/format/format.go: PrintDescriptor"]}
{"id": "C114", "title": "Printed words do not run together", "statement": "In the text printed for any file descriptor two neighbouring words, numbers or strings are separated by a blank or punctuation.", "quantifier": "every file descriptor, well-formed or not", "why_tests_cant": "blanks are written by many pieces of code", "anchors": ["pkg/format/protoprint/print.go: printFile, printField, printOption"]}
{"id": "C115", "title": "The first value of a printed enum is the descriptor's first value", "statement": "The first value of an enum, which is its default, is the first value in the text printed for it.", "quantifier": "every file descriptor", "why_tests_cant": "depends on the sort of all the enum's elements", "anchors": ["pkg/format/sort.go: SortElements", "pkg/format/protoprint/print.go: printEnum"]}
{"id": "C116", "title": "A call through a generated gRPC client arrives at that method of the server", "statement": "For every method of every service in a generated file that Go accepts, the client's method makes one call, of the path /service/method with the directions declared for it, and a server that registered the service answers that path by running the method of the same name with the declared request type; no other outcome is possible.", "quantifier": "every list of files, services and methods with any mix of streaming directions, with and without generic streams", "why_tests_cant": "the client picks its stream description by a running index and the server its handler by position, over any mix of unary and streaming methods", "anchors": ["sdk/codegen/generators/golang/grpc/upstream_gen.go: genService, genClientMethod, genServerMethod, genServiceDesc, genFullMethods", "sdk/codegen/generators/golang/grpc/generator.go: Generate"]}
{"id": "C117", "title": "Generated gRPC code declares no name twice", "statement": "The Go declarations generated for a file that the compiler accepts have distinct names.", "quantifier": "every file", "why_tests_cant": "names are built by joining service and method names with fixed words, so collisions depend on pairs of names", "anchors": ["sdk/codegen/generators/golang/grpc/upstream_gen.go: formatFullMethodSymbol, genService, genClientMethod, genServerMethod, generateUnimplementedServerType, unexport"]}
{"id": "C118", "title": "Generated gRPC types implement the generated interfaces", "statement": "The client struct has every method of the client interface, the Unimplemented server every method of the server interface, stream objects those of the declared stream types, and every handler calls a method the server interface has with the arguments it takes.", "quantifier": "every list of files, services and methods, with and without generic streams, with and without required embedding", "why_tests_cant": "signatures and bodies are written by different functions that branch on the same flags", "anchors": ["sdk/codegen/generators/golang/grpc/upstream_gen.go: clientSignature, serverSignature, clientStreamInterface, serverStreamInterface, genClientMethod, genServerMethod, generateUnimplementedServerType"]}
{"id": "C119", "title": "The descriptor found at a declaration's name is that declaration", "statement": "For the name of any message, field, map, group, oneof, enum, value, extension, service or method of a linked file, the search for the descriptor at that place (hover, go to definition, references, rename) gives the descriptor of the declaration the name belongs to.", "quantifier": "every linked file of any nesting and every name in it", "why_tests_cant": "files nest without bound, names repeat at different depths, and the search mixes lookup by name with lookup by syntax node", "anchors": ["pkg/lsp/search.go: deepPathSearch", "pkg/lsp/cache.go: FindTypeDescriptorAtLocation"]}
{"id": "C120", "title": "The descriptor found at a type name is the type", "statement": "At the type of a field, extension, map value or method, the search gives the descriptor of that type; at the extendee of an extend block, the extended message; at a map's key type, nothing.", "quantifier": "every linked file of any nesting and every type in it", "why_tests_cant": "as C119", "anchors": ["pkg/lsp/search.go: deepPathSearch"]}
{"id": "C121", "title": "Accepting an option's name writes that name", "statement": "When an item offered for the name of an option is accepted, the text is as before except that the name at the cursor, if any, is replaced by the option's: plain for a field, in parentheses for an extension (in a message literal, in brackets).", "quantifier": "every line, every reference at the cursor, every column in it, every item offered", "why_tests_cant": "columns, the length of what is typed and of what follows, and the place of the brackets vary independently", "anchors": ["pkg/lsp/completion.go: deepCompleteOptionNames, completeOptionOrExtensionName, newExtensionFieldCompletionItem, findPartialNames", "pkg/lsp/range.go: adjustColumn"]}
{"id": "C122", "title": "What may still be set is offered, and nothing else", "statement": "The options offered are the fields of the options' message that start with what is typed, are not set yet or may be repeated, and its extensions that are not set.", "quantifier": "every message, every set of options already set, every text typed", "why_tests_cant": "the set of options on an element and the message's fields and extensions are arbitrary", "anchors": ["pkg/lsp/completion.go: deepCompleteOptionNames, findExistingOptions, GetCompletions"]}
{"id": "C123", "title": "The options offered are those of the element edited", "statement": "In an option statement or a list of options in brackets, the options offered are those of the innermost declaration around it.", "quantifier": "every file of any nesting and every declaration in it", "why_tests_cant": "declarations nest without bound; the scope is found by a walk over the syntax and a search by name", "anchors": ["pkg/lsp/completion.go: findCompletionScope, GetCompletions", "pkg/lsp/search.go: deepPathSearch"]}
{"id": "C124", "title": "Accepting a name from another file makes it visible and keeps the imports sound", "statement": "After a completed type or extension is accepted the file sees it; an import is added exactly if it did not see it before; everything visible before stays visible; the import written names the declaring file; and no import cycle arises.", "quantifier": "every workspace, file, declared name and import graph", "why_tests_cant": "import graphs, with public imports, are unbounded", "anchors": ["pkg/lsp/completion.go: maybeResolveImport, editAddImport"]}
{"id": "C125", "title": "Package names offered are those in use beside the file", "statement": "For the package statement, the name of the file's directory (if it is a valid name) and the packages of the other files in it are offered, those that start with what is typed, each once and in ascending order.", "quantifier": "every list of files, every path and every text typed", "why_tests_cant": "any number of files and directories", "anchors": ["pkg/lsp/completion.go: completePackageNames"]}
{"id": "C126", "title": "Adding an undeclared type declares it and disturbs nothing", "statement": "The fix offered for an undeclared name adds an empty message of that name behind the last declaration, puts the cursor into its body and shows it; the name is then declared, every other name keeps its meaning, and the rest of the text, comments included, stays with what it belongs to.", "quantifier": "every text, every name and every scope it is used in", "why_tests_cant": "positions depend on the whole text, name resolution on all scopes", "anchors": ["pkg/lsp/diagnostics.go: codeActionsForError"]}
{"id": "C127", "title": "Removing an unused import removes nothing else", "statement": "The fix offered for an unused import deletes that statement and nothing else that is visible; unused imports, and nothing else, become warnings and are shown as unnecessary.", "quantifier": "every text and every place of the statement in it", "why_tests_cant": "statements may share lines with anything and span lines", "anchors": ["pkg/lsp/diagnostics.go: codeActionsForError, severityForError"]}
{"id": "C128", "title": "Workspaces are told what happens to their files", "statement": "A notification that files were created, changed, deleted or renamed tells every workspace exactly the events of its files, in order and at once.", "quantifier": "every notification, every assignment of files to workspaces", "why_tests_cant": "notifications are of any length and mix files of several workspaces", "anchors": ["pkg/lsp/server.go: DidChangeWatchedFiles, changeTypeToFileAction, DidCreateFiles, DidDeleteFiles, DidRenameFiles"]}
{"id": "C129", "title": "File notifications do not stop the server", "statement": "Creating, deleting or renaming any number of files at a time leaves the server running, with the files concerned compiled again.", "quantifier": "every list of files and every state of the resolver", "why_tests_cant": "depends on the number of files and on how indices shift while a list is edited", "anchors": ["pkg/lsp/documents.go: DidModifyFiles", "pkg/lsp/resolver.go: UpdateURIPathMappings", "pkg/lsp/server.go: DidDeleteFiles, DidRenameFiles"]}
{"id": "C130", "title": "Hovering over a name shows its declaration", "statement": "Hovering over the name of a declaration shows that declaration and nothing else: one code block whose code is a spelling of the declaration, with its comments.", "quantifier": "every declaration, with any body, comments and layout, wherever it is nested", "why_tests_cant": "declarations are trees of any size; the code is embedded in Markdown, whose block ends at the first line of backquotes", "anchors": ["pkg/lsp/hover.go: ComputeHover", "pkg/format/format.go: PrintNode", "pkg/lsp/search.go: findPathIntersectingToken"]}
{"id": "C131", "title": "Every token is highlighted once, as what it is", "statement": "In every file, each keyword, name, number, string and operator is reported as highlighted exactly once and with the type and modifiers of its role; punctuation and what is not in the file is not reported.", "quantifier": "every syntax tree, with any names, values, nesting and layout, and all results of the linker", "why_tests_cant": "trees are of any size; the walk and the rules for fields, lists and type names report tokens independently of each other", "anchors": ["pkg/lsp/semantic.go: inspect, mktokens, inspectCompoundIdent, inspectFieldLiteral, inspectArrayLiteral"]}
{"id": "C132", "title": "Every comment is highlighted once", "statement": "Each comment of a file is reported as a comment exactly once, wherever it stands.", "quantifier": "every syntax tree and every placement of comments", "why_tests_cant": "comments may stand at any token; which nodes report theirs depends on the construct", "anchors": ["pkg/lsp/semantic.go: inspect, mktokens, mkcomments"]}
{"id": "C133", "title": "Renumbering the fields of a message changes nothing else", "statement": "After the 'renumber fields' refactoring the file consists of the same words, except that the fields of the message are numbered 1, 2, ... in their order, and it has the same comments.", "quantifier": "every message, with any members, comments, layout and position in a file", "why_tests_cant": "the message is printed anew by the formatter and indented to its old column; messages are trees of any size", "anchors": ["pkg/lsp/refactor.go: renumberFields, indentTextHanging", "pkg/format/format.go: PrintNode, NodeInfoOverlay"]}
{"id": "C134", "title": "Extracting fields moves them and changes nothing else", "statement": "After the 'extract fields' refactoring the chosen fields stand, in their order, in a new message after the old one; at the place of the first of them stands one field of that message's type; all other words and all comments are as before.", "quantifier": "every message, selection of fields, names chosen, and text around the message", "why_tests_cant": "two edits are made from trees printed by the formatter; selections and messages are of any size", "anchors": ["pkg/lsp/refactor.go: extractFields, indentTextHanging, indentText", "pkg/format/format.go: PrintNode, NodeInfoOverlay"]}
{"id": "C135", "title": "Inlining a field changes nothing else", "statement": "After the 'inline message fields' refactoring the field is replaced, at its place, by the fields of its message type; all other words and comments are as before.", "quantifier": "every message, field and list of fields of its type", "why_tests_cant": "messages are trees of any size; the message is printed anew", "anchors": ["pkg/lsp/refactor.go: inlineMessageFields, indentTextHanging", "pkg/format/format.go: PrintNode, NodeInfoOverlay"]}
{"id": "C136", "title": "CEL expressions are highlighted where they stand", "statement": "Each item reported for a CEL expression in an option covers, in the file, exactly the text of the operator, identifier or literal it is reported for, with the type of that; message literals without an expression and an id are left alone, and expressions that cannot be parsed are highlighted as strings.", "quantifier": "every message literal, every split of an expression into strings, every position in a file and every result of the CEL parser", "why_tests_cant": "columns in the expression are mapped to columns in the file per string; expressions are of any form", "anchors": ["pkg/lsp/semantic.go: inspectCelExpr, mktokens_cel, inspect"]}
{"id": "C137", "title": "Highlighting does not stop the server", "statement": "For every message literal in a file, highlighting its CEL expression ends without a panic.", "quantifier": "every message literal and every result of the CEL parser that lies within the expression", "why_tests_cant": "depends on the values of strings and on the form of incomplete literals", "anchors": ["pkg/lsp/semantic.go: inspectCelExpr"]}
{"id": "C138", "title": "Accepting an import or a syntax writes it", "statement": "With the cursor in the path of an import, the files offered are exactly those that are not imported yet and whose path begins with what is typed; accepting one leaves an import of that path and changes nothing else on the line. The same holds of the versions of a syntax statement.", "quantifier": "every line, every position in the path, every set of known files and of imports", "why_tests_cant": "lines, positions and sets of files are unbounded", "anchors": ["pkg/lsp/completion.go: GetCompletions, completeImports, completeSyntaxVersions", "pkg/lsp/resolver.go: findImportPathsByPrefix"]}
{"id": "C139", "title": "Keywords are offered where they may stand", "statement": "The keywords offered in a message or at the top level are exactly those that may begin an element there and that begin with what is typed; accepting one replaces exactly the name under the cursor.", "quantifier": "every line, position, name under the cursor, and syntax or edition", "why_tests_cant": "lines, positions and headers are unbounded", "anchors": ["pkg/lsp/completion.go: messageKeywordCompletions, fileKeywordCompletions, completeKeywords, isProto2, findPartialNames"]}
{"id": "C140", "title": "Values are offered and replace the value", "statement": "With the cursor at the value of a field, the values offered are exactly those of its type that begin with what is typed, and accepting one leaves it in place of the value; where there is no value, it is inserted at the cursor, and braces are for a message.", "quantifier": "every type of field, every line, value and position", "why_tests_cant": "lines, values and positions are unbounded", "anchors": ["pkg/lsp/completion.go: completeFieldLiteralValues, completeEnumValues, findPartialNames"]}
{"id": "C141", "title": "Fields offered in a message literal are those that may still be set", "statement": "In a message literal a field is offered if and only if it is repeated or not set yet, and accepting it adds to the words of the file that field's name, a colon and the brackets of its value, and nothing else.", "quantifier": "every message type, every set of fields present, every text before and after the cursor", "why_tests_cant": "types, literals and texts are unbounded", "anchors": ["pkg/lsp/completion.go: GetCompletions, fieldCompletion"]}
{"id": "C142", "title": "Each part of an option's name is completed from the part before it", "statement": "With the cursor right before a dot of an option's name, or after the last one, the fields offered are exactly those of the message that this part of the name is a field of - the options of the element, or the type of the part before - whose names begin with what is typed, and accepting one leaves it in place of the part.", "quantifier": "every name of any number of parts, every part, every message and every text around the name", "why_tests_cant": "names, messages and texts are unbounded", "anchors": ["pkg/lsp/completion.go: GetCompletions, deepCompleteOptionNames"]}
{"id": "C143", "title": "The type that is completed is replaced", "statement": "Accepting a type while the type of a field or an extendee is typed leaves it in place of what stands there and changes nothing else, and completion does not panic.", "quantifier": "every line, name and position of the cursor in the name", "why_tests_cant": "lines, names and positions are unbounded", "anchors": ["pkg/lsp/completion.go: GetCompletions, completeTypeNamesFromList"]}
{"id": "C144", "title": "Extracted fields keep their types", "statement": "After the 'extract fields' refactoring the type of each moved field, read at its new place by protobuf's scoping rules, means what it meant before, and its label is the same.", "quantifier": "every set of declared names, package, nesting of the message, field and type", "why_tests_cant": "which declaration a name means depends on all scopes around it, of any depth", "anchors": ["pkg/lsp/refactor.go: extractFields, findNewUnusedMessageName", "pkg/lsp/completion.go: relativeFullName"]}
{"id": "C145", "title": "Inlined fields keep their types and labels", "statement": "After the 'inline message fields' refactoring each new field has the type, read at its place by protobuf's scoping rules, and the label of the field it was made from.", "quantifier": "every set of declared names, package, nesting of the message, field and type", "why_tests_cant": "which declaration a name means depends on all scopes around it, of any depth", "anchors": ["pkg/lsp/refactor.go: inlineMessageFields", "pkg/lsp/completion.go: relativeFullName"]}
{"id": "C146", "title": "Formatting a formatted file changes nothing", "statement": "Formatting the text that formatting a file gave, read again, gives the same text.", "quantifier": "every file", "why_tests_cant": "files are unbounded, and whether fields are aligned and where empty lines go depends on the lines of the source, which formatting changes", "anchors": ["pkg/format/formatter.go: writeFile, writeStartMaybeCompact, writeLineEnd, writeBodyEnd, writeCompactOptions", "pkg/format/column_format.go: columnFormatElements", "pkg/lsp/format.go: FormatDocument"]}
{"id": "C147", "title": "Accepting a type writes a name that means it", "statement": "The text inserted when an offered type is accepted, read at the cursor by protobuf's scoping rules, means the type that was offered.", "quantifier": "every set of files, package, enclosing scope and text typed", "why_tests_cant": "which declaration a name means depends on all scopes around it, of any depth", "anchors": ["pkg/lsp/completion.go: completeTypeNames, completeExtendeeTypeNames, completeTypeNamesFromList"]}
{"id": "C148", "title": "The types offered are those that what is typed can mean", "statement": "While the type of a field or an extendee is typed, exactly the messages, other than map entries, and enums are offered whose name can be reached by continuing what was typed.", "quantifier": "every set of files, package and text typed", "why_tests_cant": "files and names are unbounded", "anchors": ["pkg/lsp/completion.go: completeTypeNames, completeExtendeeTypeNames, completeTypeNamesFromList, allowedProto3Extendees", "pkg/lsp/cache.go: FindAllDescriptorsByPrefix, FindAllDescriptorsByQualifiedPrefix"]}
{"id": "C149", "title": "A refactoring changes the text it was computed for", "statement": "When an offered refactoring is accepted, its edits are applied to the text they were computed from or not at all, and at most once; resolved in time with the text untouched, they are applied.", "quantifier": "every history of edits, compilations, offers, expiries, resolutions and answers", "why_tests_cant": "the order of typing, compiling, choosing and answering is arbitrary", "anchors": ["pkg/lsp/refactor.go: pendingCodeActionManager.enqueue, pendingCodeActionManager.resolve", "pkg/lsp/server.go: ResolveCodeAction, clientSupportsResolveEdits"]}
{"id": "C150", "title": "Every command is answered", "statement": "Whatever a client sends with workspace/executeCommand, the server replies with a result or an error and goes on serving.", "quantifier": "every command name, list of arguments, set of workspaces and sequence of commands", "why_tests_cant": "arguments are arbitrary JSON values", "anchors": ["pkg/lsp/commands.go: ExecuteCommand", "pkg/lsprpc/handler.go: unknownHandler.Execute, ServeStream"]}
{"id": "C151", "title": "Commands work in the workspace they name", "statement": "A command does something only in a workspace of the server, the one its argument names; code is generated for exactly the files that are listed.", "quantifier": "every command, argument, set of workspaces and order of them", "why_tests_cant": "arguments are arbitrary JSON values and workspaces any number", "anchors": ["pkg/lsp/commands.go: ExecuteCommand", "pkg/lsprpc/handler.go: unknownHandler.Execute", "pkg/lsp/server.go: CacheForURI, CacheForWorkspace"]}
{"id": "C152", "title": "Highlighting a part of a document agrees with highlighting all of it", "statement": "Semantic tokens requested for a range are tokens reported for the whole document in the same order, and every one of those with text in the range is among them.", "quantifier": "every document, syntax tree and range", "why_tests_cant": "trees and ranges are unbounded", "anchors": ["pkg/lsp/semantic.go: ComputeSemanticTokensRange, semanticTokensRange, computeSemanticTokens"]}
{"id": "C153", "title": "Hints for a part of a document are those of its references", "statement": "Hints requested for a range are those, for each reference in brackets to a field of one message, that name the type of the message in front of the closing bracket, of the references with text in the range; each once.", "quantifier": "every document, list of references and range", "why_tests_cant": "documents and ranges are unbounded", "anchors": ["pkg/lsp/inlayhints.go: computeMessageLiteralHints"]}
{"id": "C154", "title": "Editing a document does not stop the server", "statement": "Whatever a client does with a document that the protocol allows (open, change, save, close), and whatever happens to the file on disk and to the workspace folders, no notification ends the server.", "quantifier": "every history of editing, of the file on disk, of notifications about it and of folder changes", "why_tests_cant": "the order of edits, file events and folder changes is arbitrary", "anchors": ["pkg/lsp/documents.go: DidModifyFiles, ChangedText", "pkg/lsp/server.go: DidOpen, DidChange, DidSave, DidClose, DidChangeWatchedFiles, DidChangeWorkspaceFolders", "pkg/lsp/resolver.go: UpdateURIPathMappings"]}
{"id": "C155", "title": "The server works on the text of the document", "statement": "While a document is open, the server's text of it and the text its results were compiled from are what is in the editor; after it is closed, they are what is on disk.", "quantifier": "every history of editing, of the file on disk, of notifications about it and of folder changes", "why_tests_cant": "the order of edits, file events and folder changes is arbitrary", "anchors": ["pkg/lsp/documents.go: DidModifyFiles, ChangedText, GetMapper", "pkg/lsp/server.go: DidOpen, DidChange, DidSave, DidClose, DidChangeWatchedFiles", "pkg/lsp/resolver.go: UpdateURIPathMappings"]}
{"id": "C156", "title": "Go to definition leads to the declaration", "statement": "At a name, a field's type or a method's message, \"go to definition\" gives the file and range of the name of the declaration it stands for, in the current text of the declaring file; \"find references\" lists that place first when the declaration is asked for.", "quantifier": "every history of compilations, every document, position and schedule of compilations between the steps of the request", "why_tests_cant": "which files are compiled again between the steps of a request is up to the scheduler", "anchors": ["pkg/lsp/server.go: Definition", "pkg/lsp/cache.go: FindTypeDescriptorAtLocation, FindDefinitionForTypeDescriptor", "pkg/lsp/search.go: findDefinition", "pkg/lsp/references.go: FindReferences"]}
{"id": "C157", "title": "A reported range selects what it is about", "statement": "The range reported for a node of a document (definitions, references, symbols, links, edits, diagnostics) selects, with the protocol's lines and UTF-16 columns, exactly the bytes of the node.", "quantifier": "every text and every node in it, whatever columns the parser counts", "why_tests_cant": "all texts, with all characters at all places", "anchors": ["pkg/lsp/range.go: toRange, toPosition, positionsToRange, pointToRange, adjustColumns", "pkg/lsp/inlayhints.go", "pkg/lsp/diagnostics.go: toProtocolDiagnostics"]}
{"id": "C158", "title": "Completion reads what is typed", "statement": "The part of a name before the cursor and the part after it, which completion filters by and replaces, are the bytes of the name before and after the cursor.", "quantifier": "every text, every name in it and every cursor in the name", "why_tests_cant": "all texts, with all characters at all places", "anchors": ["pkg/lsp/completion.go: findPartialNames, GetCompletions (field types)", "pkg/lsp/range.go: toRange, toPosition"]}
{"id": "C159", "title": "The check reports every problem and fails exactly for errors", "statement": "For every diagnostic the check (the vet command, the compiler driver of the SDK) prints a message with severity, file, line number and text, and for errors and warnings with the line of the file; it fails exactly if there is an error.", "quantifier": "every set of documents, texts and diagnostics", "why_tests_cant": "all texts and all ranges of diagnostics in them", "anchors": ["sdk/driver/driver.go: Compile", "pkg/lsp/externalapi.go: XGetAllDiagnostics", "pkg/protols/commands/vet.go"]}
{"id": "C160", "title": "The check completes whatever the problems", "statement": "Turning diagnostics into messages neither crashes nor gives up, whatever the texts and the places of the problems.", "quantifier": "every text and every diagnostic", "why_tests_cant": "all texts and all ranges of diagnostics in them", "anchors": ["sdk/driver/driver.go: Compile", "pkg/protols/commands/vet.go"]}
{"id": "C161", "title": "The check shows the place of a problem", "statement": "The line shown with an error or warning is the line of the file, with exactly the text of the problem in the colour of its severity.", "quantifier": "every text and every node in it", "why_tests_cant": "all texts and all places in them", "anchors": ["sdk/driver/driver.go: Compile, severityToColor", "pkg/lsp/range.go: positionsToRange"]}
{"id": "C162", "title": "Printed declarations keep their comments", "statement": "Printing a declaration from its descriptor (the Go API that also makes the sources of synthesized files) writes all its detached, leading and trailing comments, each line of them, around the declaration, so that a reader attaches them to the same declaration; it never crashes.", "quantifier": "every comment and every declaration, alone or in a row of fields or options", "why_tests_cant": "all comments with all line structures and all contexts", "anchors": ["pkg/format/protoprint/print.go: printElement, printBlockElement, printLeadingComments, printTrailingComments, newLine", "pkg/format/format.go: NewDefaultPrinter"]}
{"id": "C163", "title": "Printed elements are in a well-defined order", "statement": "Sources printed from descriptors have the package first, then imports by path, then options, the built-in ones first; fields, extensions and enum values are in the order of their numbers, and everything else is in the order of the source.", "quantifier": "every file, message, enum and service, with and without source information", "why_tests_cant": "all sets of elements with all combinations of kinds, numbers and locations", "anchors": ["pkg/format/sort.go: SortElements", "pkg/format/protoprint/print.go: elementSrcOrder.Less, customSortOrder.Less, sort"]}
{"id": "C164", "title": "Extensions are printed in their extend statements", "statement": "Printing a file or message prints every extension in a block for the extend statement that it was declared in, with the comments of that statement.", "quantifier": "every file and message with source information", "why_tests_cant": "all numbers of extend statements at all depths", "anchors": ["pkg/format/protoprint/print.go: findExtSi, isSpanWithin, computeExtensions"]}
{"id": "C165", "title": "An option is printed with the comments of the statement that sets it", "statement": "Printing a declaration from its descriptor gives each option, of any element and however deep the statement's name leads into a message, the comments of the statement that sets it; other elements are not affected by how options are looked up.", "quantifier": "every list of source locations and every option of files, messages, fields, oneofs, extension ranges, enums, enum values, services and methods", "why_tests_cant": "all sets of locations at all depths and in all orders, of which the first match is taken", "anchors": ["pkg/format/protoprint/print.go: extendOptionLocations, edges, printOptionsLong, printOptionElementsShort", "pkg/format/protoprint/internal/source_info.go: Get, PutIfAbsent, PopulateSourceInfoMap"]}
{"id": "C166", "title": "Offered fields are shown with their type and file", "statement": "Beside each field that completion offers, its type is shown as it is written in the language, so that fields of different types can be told apart; beside what comes from another package or needs an import, the file is shown, and an import is added exactly if the name is not visible yet.", "quantifier": "every field of every type and cardinality, and every visible or invisible name", "why_tests_cant": "all kinds of types combined with all names, labels and files", "anchors": ["pkg/lsp/completion.go: fieldTypeDetail, fieldCompletion, newExtensionFieldCompletionItem, maybeResolveImport"]}
{"id": "C167", "title": "Requests are refused exactly while the file has a syntax error", "statement": "Formatting and hints are refused exactly while the file has a syntax error, be it one that the parser recovers from but that cannot be formatted; completion from the current tree, renaming and highlighting exactly while it has one that the parser does not recover from. Problems reported before the last compilation of the file, and problems of other files, do not matter.", "quantifier": "every history of reports, clearings and withdrawals for all files", "why_tests_cant": "all interleavings of compilations of all files before the request", "anchors": ["pkg/lsp/documents.go: LatestDocumentContentsWellFormed", "pkg/lsp/diagnostics.go: GetDiagnosticsForPath, HandleError, HandleWarning, ClearDiagnosticsForPath"]}
{"id": "C168", "title": "Completion at a dot in an option's name offers what the names before lead to", "statement": "After a dot at the end of an option's name, the offered fields are those of the message that the name leads to, and accepting one writes it after the dot. At the end of a name before a dot, the offered fields are those of the message that the names before it lead to which start as it does, and accepting one replaces the name.", "quantifier": "all names of options with any number of parts, all messages and extensions, all cursor positions at a dot", "why_tests_cant": "Names can have any number of parts, extensions or not, and the type of each decides what is offered.", "anchors": ["pkg/lsp/completion.go: GetCompletions (case *ast.OptionNameNode), deepCompleteOptionNames"]}
{"id": "C169", "title": "Types are completed for what is typed before the cursor", "statement": "In the type of a field and in the name of an extended message, completion looks for types by the part of the name before the cursor and replaces the rest. It does not fail wherever the cursor is in the name. Where a type is missing, types are offered with nothing typed.", "quantifier": "all names as written, with blanks and comments between their parts, and all cursor positions", "why_tests_cant": "The offsets of the text and of the name differ by everything written between the parts, which can be anything.", "anchors": ["pkg/lsp/completion.go: GetCompletions (cases *ast.FieldNode and *ast.ExtendNode)"]}
{"id": "C170", "title": "Printed options and maps come in the same order every time", "statement": "Printing a descriptor lists its options in the same order each time, though they are kept in a map without an order: first the options of the language, then extensions, each by name. So do the keys of a map value, by number, text or false before true, and the fields of a message literal, by number.", "quantifier": "all sets of options, keys and fields, all orders of iteration over them, all ways of sorting that keep Go's contract", "why_tests_cant": "Go picks the order of iteration at random, so any run can pass by chance; the order must be the same for every permutation.", "anchors": ["pkg/format/protoprint/print.go: optionsAsElementAddrs, optionsByName, optionLess, sortKeys", "pkg/format/protoprint/message_literal.go: printMessageLiteralToBuffer"]}
{"id": "C171", "title": "Options are read with the extensions that the file sees", "statement": "Before a descriptor is printed, the types declared in its file, in the files it imports, and in what these import publicly are registered, at any depth of nesting and no others; of types with the same name, or extensions with the same number of the same message, one is. Options kept as unknown bytes are read exactly if their extension is among these, and then printed.", "quantifier": "all files with any tree of messages, all graphs of imports, all options with unknown fields", "why_tests_cant": "Imports and messages nest without bound; what is registered must be exactly what is visible.", "anchors": ["pkg/format/protoprint/internal/registry.go: registerTypesForFile, registerTypes", "pkg/format/protoprint/print.go: PrintProto, reparseUnknown"]}
{"id": "C172", "title": "The path of an element leads to it", "statement": "Where a single element is printed, its comments are looked up at the path that leads to it in the descriptor of its file; no two elements have the same path.", "quantifier": "all elements at any depth of nesting", "why_tests_cant": "Elements nest without bound, and the numbers on the path depend on what each lies in.", "anchors": ["pkg/format/protoprint/print.go: findElement"]}
{"id": "C173", "title": "Requests do not race on the tables of paths", "statement": "Whatever requests run at the same time and however they take turns, the tables that map documents to import paths are not written while another request reads or writes them, at which the Go runtime would end the server.", "quantifier": "all sets of concurrent requests of any number, all their schedules", "why_tests_cant": "Races show only under some schedules, and not even then in every run.", "anchors": ["pkg/lsp/resolver.go: UpdateURIPathMappings, FindFileByPath, CheckIncompleteDescriptors, PathToURI, URIToPath", "pkg/lsp/externalapi.go: XGetURIPathMappings, XListWorkspaceLocalURIs", "pkg/lsprpc/handler.go: Execute, doGenerate", "pkg/lsp/documents.go: DidModifyFiles"]}
{"id": "C174", "title": "Results are not replaced while they are read", "statement": "Whatever requests and compilations of a workspace run at the same time and however they take turns, the results of its files are not replaced while a request goes through them.", "quantifier": "all sets of concurrent requests and compilations of any number, all their schedules", "why_tests_cant": "Races show only under some schedules, and not even then in every run.", "anchors": ["pkg/lsp/compiler.go: Compile, postInvalidateHook", "pkg/lsp/cache.go: resultsMu and the lookups under it", "pkg/lsp/completion.go: completePackageNames"]}
{"id": "C175", "title": "Every value of an option is printed, under its own name", "statement": "Where a descriptor is printed, an option that repeats is printed once for each of its values, in their order. An option that was not yet interpreted is printed with the name it was written with, different names giving different text, and with the value it is set to; printing fails only if it is set to nothing.", "quantifier": "all values of options, single, repeated and maps; all options not yet interpreted, with names of any number of parts", "why_tests_cant": "Names have any number of parts, of which some are in parentheses and contain dots themselves; that no two collide cannot be sampled.", "anchors": ["pkg/format/protoprint/print.go: valueToOptions, valueForOption, uninterpretedToOptions, printOption"]}
{"id": "C176", "title": "Values gathered into one array are separated by commas", "statement": "When options are simplified, the array that the values end in is printed with exactly one comma between any two of them, whatever the values were given as: single values, arrays, empty arrays, with or without a comma at the end.", "quantifier": "all arrays that are there already, all lists of values and arrays gathered into them", "why_tests_cant": "Where commas are missing depends on how many values of which form are gathered; the printer looks them up by index and fails if there are too few.", "anchors": ["pkg/lsp/refactor.go: calcSimplifyRepeatedOptionsEdits", "pkg/format/formatter.go: writeArrayLiteral"]}
{"id": "C177", "title": "Comments carried over into generated services stay comments", "statement": "Whatever the comments of a file, a service or a method contain, each of their lines is a line of comment in the Go code generated for its services; those of a service are not cut off from its interface by an empty line, those of a method stand right before it, and all of them say the same but for white space at the end.", "quantifier": "all texts of comments, with any line ends and white space, detached or leading, and methods deprecated or not", "why_tests_cant": "A comment may be of any number of lines, end in empty ones, or be nothing but white space, and code that got out of a comment would be compiled.", "anchors": ["sdk/codegen/generators/golang/grpc/upstream_gen.go: genServiceComments, genLeadingComments, genService"]}

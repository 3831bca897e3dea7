# Single source for properties.jsonl, MANIFEST.json and the property table of DESIGN.md.
# Run: python3 tools/gen.py
P = []
def p(id, title, statement, quantifier, why, anchors, plan, status="planned", theorems=(), note=""):
    P.append(dict(id=id, title=title, statement=statement, quantifier=quantifier,
                  why_tests_cant=why, anchors=anchors, plan=plan, status=status,
                  theorems=list(theorems), note=note))

p("C01", "A successful wait for a document version is truthful",
  "WaitDocumentVersion(uri, v) returns success only if, at some point no later than its return, the version most recently published for that same uri was >= v or was -1 (closed/on-disk marker). A wait that was cancelled reports the cancellation and never success.",
  "every history of Wait / Update / cancel operations on any number of documents and versions, in every interleaving of the waiting goroutines",
  "the outcome depends on the interleaving of an unbounded number of waiters and updates; a test exercises one schedule",
  ["pkg/lsp/versions.go: documentVersionQueue.Wait, Update, Get", "pkg/lsp/documents.go: WaitDocumentVersion"],
  "Transition system over (versions, queue, channel states, waiter states); inductive invariant over op lists.")
p("C02", "No lost wake-up",
  "Once a version v' >= v (or -1) of a document has been published, no wait for version v of that document is blocked: every wait already pending is released by that very update and every later wait returns immediately until a lower version is published. Updates of other documents release nobody.",
  "every history and interleaving, every pair of versions, any number of pending waits per document and version",
  "lost wake-ups show only in particular interleavings",
  ["pkg/lsp/versions.go: documentVersionQueue.Wait, Update"],
  "Invariant: a blocked waiter's channel is open, is registered under its (uri, version), and the published version is absent or lower.")
p("C03", "A wake-up is signalled at most once",
  "No sequence of operations makes the server signal (close) the same wake-up twice, which would panic the server.",
  "every history of Wait / Update operations, including repeated and out-of-order versions",
  "a double close needs a specific repeated-version history",
  ["pkg/lsp/versions.go: Update"],
  "Invariant: registered channels are open and pairwise distinct; the model has an explicit panic state and it is unreachable.")
p("C04", "The published version of an open document never goes backwards",
  "Between opening and closing a document, whose versions the client only ever increases, the version the server publishes never decreases (otherwise requests that wait for a version already processed time out).",
  "every client history of open, change, save events on a document",
  "needs histories mixing saves and changes",
  ["pkg/lsp/server.go: DidSave, DidChange, DidClose", "pkg/lsp/documents.go: DidModifyFiles", "pkg/lsp/versions.go: Update"],
  "Model the handlers as translating client events to Update calls; monotonicity without saves, refutation with a save.")
p("C05", "A batch of file events drops exactly the events it cannot resolve",
  "When a batch of file events is processed, exactly the events whose document cannot be resolved are discarded; all the others are applied, once, in order.",
  "every batch of events and every set of unresolvable documents",
  "depends on how many events of the batch are unresolvable and where they are",
  ["pkg/lsp/documents.go: DidModifyFiles"],
  "Compare the index-based deletion loop with filter; proved for at most one unresolvable event, refuted in general.")
p("C06", "Incremental text synchronisation follows the protocol",
  "After a didChange notification the server's text of the document is the previous text with the notification's changes applied one after the other, each one to the result of the previous one.",
  "every document text and every list of content changes in one notification",
  "multi-change notifications are an unbounded family; editors produce them only for multi-cursor edits",
  ["pkg/lsp/documents.go: ChangedText, contentChangeEventsToDiffEdits"],
  "Text as byte list, changes as offset ranges; compare with left-to-right application; proved for single changes and for batches ordered from the end of the document; refuted in general.")
p("C07", "Compilation results stay consistent",
  "After any number of compilations and invalidations there is at most one result per file path; a path is never recorded both as partially linked and as unlinked; and a path recorded as partially linked or unlinked has no stale fully linked result visible to lookups.",
  "every sequence of compilation outcomes (linked, partial, unlinked per path), failed compilations and invalidations",
  "stale or duplicate entries need a particular order of outcomes for a path",
  ["pkg/lsp/compiler.go: compileLocked, preCompile, postInvalidateHook", "pkg/lsp/cache.go"],
  "State machine with the external compiler's outcome as input; inductive invariant.")
p("C08", "Lookups return the outcome of the latest compilation",
  "For every path, the parse-result lookup returns the result reported for that path by the latest compilation that reported one since its last invalidation; and the linked-result lookups return it exactly when it was linked (or partially linked, for the lookup that allows it).",
  "every sequence of compilation outcomes and invalidations, every path",
  "depends on full history per path",
  ["pkg/lsp/cache.go: findResultByPathLocked, findResultOrPartialResultByPathLocked, findParseResultByPathLocked", "pkg/lsp/compiler.go: compileLocked"],
  "Refinement to an abstract map path -> latest outcome.")
p("C09", "Deleting a file removes its result and only its result",
  "Invalidating a file that will not be recompiled removes its result from all later lookups of linked results and changes no other file's results.",
  "every reachable state and path",
  "frame conditions over all other paths",
  ["pkg/lsp/compiler.go: postInvalidateHook"],
  "Lemma over the state machine of C07.")
p("C10", "Published diagnostics are the current diagnostics",
  "While a diagnostics stream is attached, after every flush the client's view (last report received per file) equals the server's current diagnostics for every file that ever had a report; nothing is published for a file that was neither reported on nor cleared since its last flush.",
  "every interleaving of add / clear / flush operations over any set of files",
  "stale or missing reports need a particular history",
  ["pkg/lsp/diagnostics.go: DiagnosticList.Add, Clear, DeleteRelated, Flush; DiagnosticHandler.Flush, ClearDiagnosticsForPath"],
  "Refinement: invariant 'clean list => client view equal'.")
p("C11", "Diagnostics that exist when the client subscribes are delivered",
  "After a client attaches its diagnostics stream and a flush happens, it has received the current diagnostics of every file that has some.",
  "every history before and after the subscription",
  "depends on operations that happened before the subscription",
  ["pkg/lsp/diagnostics.go: DiagnosticHandler.Stream, Flush"],
  "Refuted: a flush without a listener consumes the dirty flag.")
p("C12", "Clearing a file's diagnostics has a bounded effect",
  "Clearing a file leaves it with no diagnostics; on any other file it removes only diagnostics whose range is the related range of one of the cleared diagnostics; and files not named by related information are untouched.",
  "every handler state and path",
  "frame condition over all files and related-information graphs",
  ["pkg/lsp/diagnostics.go: ClearDiagnosticsForPath, DeleteRelated"],
  "Direct proof over the handler state.")
p("C13", "'Unchanged' answers are truthful",
  "If a query with a previous result id is answered 'unchanged' then the diagnostics are the same as when that id was handed out (given distinct clock readings).",
  "every history of modifications and queries",
  "needs arbitrary history between the two queries",
  ["pkg/lsp/diagnostics.go: getLocked, resetResultId"],
  "History invariant: result id determines list content, assuming a strictly increasing clock; refuted for a stalled clock.")
p("C14", "Warning elevation follows the file's pragma",
  "A warning in a Werror category is reported as an error unless the file's debug pragma contains a field Wnoerror=<that category> or Wnoerror=all; other diagnostics keep their severity; and reporting the same diagnostic twice gives the same severity as long as the pragma does not change.",
  "every pragma string, category and severity",
  "string-parsing decision over all pragma texts",
  ["pkg/lsp/diagnostics.go: toProtocolDiagnostics", "pkg/lsp/pragmas.go"],
  "Characterise the scan over Fields/Cut; refute idempotence when the pragma is added later (severity is stored back).")
p("C15", "The semantic token stream decodes to the tokens",
  "Decoding the delta-encoded token array per the protocol yields exactly the tokens computed for the document: same positions, lengths, types and modifier bits, in document order.",
  "every list of tokens sorted by position, in 32-bit arithmetic",
  "delta encoding must be inverted for all positions including wrap-around",
  ["pkg/lsp/semantic.go: semanticItems.Data"],
  "Round trip decode (encode l) = l.")
p("C16", "Overwriting a file is crash safe",
  "If the process dies at any point while a formatted or generated file is being written, the original contents can be recovered: either the file itself still holds the complete original contents or a complete backup of it exists next to it, or the file holds the complete new contents.",
  "every crash point, every original and new content, every failure of any file operation (open, short or failed write, truncate, close), every file name",
  "crash points and I/O failures cannot be enumerated by a unit test",
  ["pkg/util/gofmt_helpers.go: OverwriteFile, backupFile"],
  "Small-step program over a file-system state with nondeterministic failures; invariant at every step.")
p("C17", "The result of overwriting a file is truthful",
  "If overwriting reports success the file holds exactly the new contents, and a backup is left only if deleting it failed; if it reports an error the file holds exactly the original contents or a complete backup is left.",
  "every pattern of I/O failures",
  "failure combinations",
  ["pkg/util/gofmt_helpers.go: OverwriteFile"],
  "Postcondition of the same program.")
p("C18", "Workspace symbol results are the best matches, ranked",
  "The symbol results are ordered by score, then name length, then name; there are at most 100; and no stored symbol with a strictly higher score is left out in favour of a lower one.",
  "every sequence of stored candidates",
  "bounded-buffer insertion with binary search must be right for all orders",
  ["pkg/x/symbols/symbols.go: symbolStore.Store, TooLow, Results"],
  "Sortedness invariant, binary-search correctness, top-K characterisation by scores.")
p("C19", "A multi-word symbol query is a conjunction",
  "A query of several fields matches a symbol exactly if every field matches it; ^, ' and $ fields match by prefix, substring and suffix; a field with no upper-case letters matches regardless of case. The empty query matches nothing.",
  "every query and every symbol",
  "string predicates over all inputs",
  ["pkg/x/symbols/symbols.go: ParseQuery, SmartCase, MatchExact, ComboMatcher.Match"],
  "Model with the fuzzy matcher as an oracle; iff characterisation.")
p("C20", "Requests are handled in arrival order",
  "A request's handler starts only after every earlier non-streaming request has been replied to; streaming requests start in the same order but do not hold up later ones.",
  "every sequence of requests and every schedule of the handler goroutines",
  "scheduling property",
  ["pkg/lsprpc/handler.go: AsyncHandler"],
  "Transition system with chained channels; invariant over all schedules.")
p("C21", "Every request is eventually handled",
  "If every handler replies exactly once, no schedule leaves a request that can never start.",
  "every sequence of requests, every schedule",
  "liveness over schedules",
  ["pkg/lsprpc/handler.go: AsyncHandler"],
  "Progress theorem: while some request is unfinished some step is enabled; plus a decreasing measure.")
p("C22", "Read-only requests cannot deadlock with an edit",
  "No schedule of concurrent read-only requests (code lens, document symbols, inlay hints, hover, definitions, ...) and edits leaves the server permanently blocked on the results lock.",
  "every set of concurrent requests and every schedule",
  "a deadlock needs a writer to arrive inside a small window",
  ["pkg/lsp/codelens.go: ComputeCodeLens", "pkg/lsp/symbols.go: DocumentSymbolsForFile", "pkg/lsp/inlayhints.go: computeImportHints", "pkg/lsp/generated.go: FindGeneratedDefinition", "pkg/lsp/compiler.go: Compile"],
  "Go RWMutex transition system; progress for non-nested lock programs, refutation for the nested ones.")
p("C23", "Commands release the locks they take",
  "Every execution path of a workspace command releases the server's cache lock before it returns.",
  "every command, every set of workspaces",
  "the leaking path depends on the kind of workspaces open",
  ["pkg/lsp/commands.go: ExecuteCommand"],
  "Lock-trace semantics per command; refuted for refreshModules.")
p("C24", "Only requested code action kinds are returned",
  "With an empty 'only' list every supported kind is wanted; otherwise a kind is wanted exactly if it is listed or is a sub-kind (separated by a dot) of a listed kind; returned actions have wanted kinds only.",
  "every 'only' list and every action kind",
  "string hierarchy over all kinds",
  ["pkg/lsp/codeactions.go: requestedActionKinds, toProtocolCodeActions"],
  "iff characterisation.")
p("C25", "Organize-imports keeps every edit",
  "The merged organize-imports action contains every edit of the actions it replaces, for every document; actions of other kinds are returned unchanged and in order.",
  "every list of code actions",
  "needs several documents or repeated texts",
  ["pkg/lsp/codeactions.go: aggregateOrganizeImportsActions"],
  "Proved for deletions and distinct texts; refuted for equal texts in different documents.")
p("C26", "A deferred code action is resolved at most once",
  "Each deferred code action's computation runs at most once and never after its deadline has removed it; resolving an unknown, expired or already resolved action fails with an error and computes nothing.",
  "every interleaving of enqueue, resolve and timer expiry",
  "race between timer and request",
  ["pkg/lsp/refactor.go: pendingCodeActionManager.enqueue, resolve"],
  "Transition system with timers; invariant counting executions.")
p("C27", "Inlining a message keeps field numbers and names unique",
  "If the field numbers and names of the enclosing message are distinct then they still are after the 'inline message fields' refactoring.",
  "every enclosing message and inlined message",
  "depends on which kinds of fields and names occur",
  ["pkg/lsp/refactor.go: inlineMessageFields, findNewUnusedFieldName"],
  "Model on declaration lists; proved when all numbered members are plain fields; refuted with map fields and with a name clash.")
p("C28", "Renumbering keeps field numbers unique",
  "After the 'renumber fields' refactoring the field numbers of the message are distinct.",
  "every message",
  "depends on the mix of declarations",
  ["pkg/lsp/refactor.go: renumberFields"],
  "Proved for messages of plain fields; refuted with a map field or oneof.")
p("C29", "Generated names are unused",
  "A name chosen for a new message or field is not already used in its scope.",
  "every set of existing names",
  "the bounded search can be exhausted",
  ["pkg/lsp/refactor.go: findNewUnusedMessageName, findNewUnusedFieldName"],
  "Proved with fewer than 100 clashes; refuted at exhaustion.")
p("C30", "Names inserted by completion resolve to the completed type",
  "The name inserted for a type, prefixed by some enclosing scope of the place of use, is the full name of that type.",
  "every package of the file and every full name of the target type",
  "string manipulation at component boundaries",
  ["pkg/lsp/completion.go: relativeFullName"],
  "Proved when the package names share prefixes only at component boundaries; refuted otherwise.")
p("C31", "Completion ranking is a consistent order",
  "The ranking of candidates by distance is a strict weak order: irreflexive, transitive, with transitive incomparability, so sorting is well defined; nearer scopes never rank below farther ones.",
  "every pair and triple of candidates",
  "algebraic law",
  ["pkg/lsp/completion.go: nameDistance, distanceSort, affineEntrySort"],
  "Lexicographic-order argument; metric laws of nameDistance.")
p("C32", "Exactly one completion is preselected and client order is server order",
  "A non-empty completion list has exactly one preselected item, and sorting the items by their sort text reproduces the server's order.",
  "every list of items",
  "depends on number of items and which were preselected",
  ["pkg/lsp/completion.go: GetCompletions"],
  "Proved for lists shorter than 100000; refuted beyond.")
p("C33", "Column segmentation is a partition",
  "Splitting fields into alignment segments loses, duplicates and reorders no field.",
  "every list of fields and every cost function",
  "optimisation result must be a partition for all inputs",
  ["pkg/format/alg.go: splitSegmentedFields"],
  "Model with costs as an oracle; concat of segments = input.")
p("C34", "Formatting imports keeps the set of imported files",
  "The sorted import block imports exactly the files the source imports, each once, in lexical order, with the same public/weak modifiers.",
  "every list of import declarations",
  "sorting plus deduplication over all orders",
  ["pkg/format/formatter.go: writeFileHeader/sort imports"],
  "Permutation + sortedness + set equality; modifiers refuted on duplicates.")
p("C35", "Formatting preserves string literal values",
  "A string literal printed by the formatter denotes the same bytes as the source literal.",
  "every string literal",
  "quote and escape combinations",
  ["pkg/format/formatter.go: writeStringLiteral"],
  "Model of requoting with a lexer spec; refuted for single-quoted literals containing double quotes; proved otherwise.")
p("C36", "Formatting preserves comment boundaries",
  "A comment moved inline by the formatter is still one comment with the same text.",
  "every comment text",
  "comment terminators inside comment text",
  ["pkg/format/formatter.go: writeInlineComments"],
  "Spec of block-comment extent; refuted for '*/' inside a line comment; proved without.")
p("C37", "Document URIs and import paths correspond one to one",
  "At every moment URIToPath and PathToURI are inverse to each other: a known URI maps to a path that maps back to it.",
  "every sequence of file events",
  "needs rename/duplicate-path histories",
  ["pkg/lsp/resolver.go: UpdateURIPathMappings, PathToURI, URIToPath"],
  "State machine with the module lookup as oracle; refuted when two URIs map to one path, proved under injectivity.")
p("C38", "Prefix-based workspace lookup picks the enclosing workspace",
  "A document is served by a workspace only if it lies inside that workspace's folder.",
  "every set of workspace folders and document paths, every map iteration order",
  "depends on folder names that are string prefixes of one another and on map order",
  ["pkg/lsp/server.go: CacheForURI"],
  "Refuted for sibling folders; proved when the folder path is followed by a separator.")
p("C39", "The go_package directive is found",
  "For a file whose go_package option is on a line of its own in canonical form, the quick scan returns exactly the import path in it (without the ;name part).",
  "every import path and every preceding and following text",
  "string scanning over all files",
  ["pkg/lsp/resolver.go: FastLookupGoModule"],
  "Scanner model; correctness for canonical lines.")
p("C40", "Byte string literals printed for descriptors round-trip",
  "The literal printed for a bytes value denotes exactly that value.",
  "every byte string",
  "escape rules over all byte strings",
  ["pkg/format/protoprint/print.go: quotedBytes"],
  "Lexer spec for literals; refuted for '\"'; proved for all strings without it.")
p("C41", "Text string literals printed for descriptors round-trip",
  "The literal printed for a string value denotes exactly that value, valid UTF-8 or not.",
  "every string",
  "escape and UTF-8 rules",
  ["pkg/format/protoprint/print.go: quotedString"],
  "As C40 with a UTF-8 decoder; refuted for '\"'.")
p("C42", "Printed reserved ranges denote the descriptor's ranges",
  "The reserved statement printed for a message or enum reserves exactly the numbers reserved in the descriptor.",
  "every range",
  "off-by-one conventions differ between messages and enums",
  ["pkg/format/protoprint/print.go: printReservedRanges, elementAddrs.at"],
  "Denotation as set of integers; proved for messages, refuted for enums.")
p("C43", "Qualified names printed for descriptors resolve",
  "The shortened name printed for a type, prefixed by some enclosing scope of the reference, is the type's full name, and protobuf's scoping rules resolve it to that type; with forced qualification it is the full name with a leading dot.",
  "every package, scope, and full name",
  "string manipulation over all names",
  ["pkg/format/protoprint/print.go: qualifyElementName"],
  "Component-wise proof; shadowing refuted.")
p("C44", "Source locations of different elements are never confused",
  "Two elements share a source-location key only if their paths are identical; looking up a path gives the locations recorded for that path, the first one first.",
  "every pair of paths of 32-bit integers",
  "injectivity of an encoding",
  ["pkg/format/protoprint/internal/source_info.go: asMapKey, PutIfAbsent, Add, Get"],
  "Injectivity by induction.")
p("C45", "Dependencies are generated before dependents",
  "The order computed for compilation results contains each file once, exactly the reachable files, and every file after all its imports, for acyclic imports.",
  "every import graph",
  "graph property",
  ["sdk/util/transform.go: TopologicalSort"],
  "DFS model; invariant on sorted prefix; explicit panic outcome for imports outside the set.")
p("C46", "Restoring original names is complete",
  "After restoring, every synthesised file and every dependency on it carries the original name.",
  "every set of descriptors and mappings",
  "depends on mapping combinations",
  ["sdk/util/transform.go: RestoreDescriptorNames"],
  "Proved unless a file's own name is already original; refuted otherwise.")
p("C47", "Generated files are written only next to their sources",
  "Code generation writes only into directories of the requested documents and reports every other output as an error.",
  "every set of documents and every generator response",
  "depends on generator output names",
  ["pkg/lsprpc/handler.go: unknownHandler.doGenerate"],
  "Model of the output-directory map and write loop.")
p("C48", "Go names derived from proto names are valid identifiers",
  "For every proto identifier path the derived Go camel-case name contains only letters, digits and underscores and starts with an upper-case letter; the sanitised name is a Go identifier that is not a keyword.",
  "every name",
  "string function over all inputs",
  ["pkg/x/protogen/strs/strs.go: GoCamelCase, GoSanitized"],
  "Induction on the scan (ASCII).")
p("C49", "The token under the cursor is found",
  "For position-sorted, non-overlapping tokens, the lookup returns the token that contains the position if there is one.",
  "every token list and position",
  "early-exit scan must be right for all layouts",
  ["pkg/lsp/search.go: findNarrowestSemanticToken"],
  "Soundness and completeness of the scan.")
p("C50", "References are reported once each",
  "Finding references reports every reference found in any file and no reference twice, under every schedule of the concurrent per-file searches.",
  "every set of files and every schedule",
  "concurrency",
  ["pkg/lsp/search.go: findNodeReferences"],
  "Transition system with an atomic load-or-store set; final multiset theorem.")

# Notes per property (what is proved, what is missing, findings). FULL: properties
# that count as proved although an auxiliary theorem is named _refuted/_partial.
NOTES = {}
FULL = set()
NOTES["C01"] = "Full statement proved for every history and interleaving."
NOTES["C02"] = "Full statement proved: released iff a satisfying version was published since the call."
NOTES["C03"] = "Full statement proved (the panic flag of the model is never set)."
NOTES["C04"] = "Finding: a save notification publishes version 0 (server.go:513-520 leaves Version at its zero value), and a close publishes nothing (documents.go:79,95). Monotonicity is proved for documents without save/on-disk events."
NOTES["C05"] = "Finding: documents.go:89-91 deletes by stale index. Proved exact characterisation: the batch is filtered correctly iff it has at most one unresolvable event; otherwise the server panics or applies an unresolvable event."
NOTES["C06"] = "Positions are modelled on UTF-8 texts with UTF-16 columns, as gopls' Mapper does, and characterised by C06_positions. Finding: documents.go:29-37 applies all changes against the original text. Proved for single changes and for batches ordered from the end; refuted in general (wrong text, rejected legal input, nil-dereference panic)."
NOTES["C16"] = "Full statement proved for every crash point and every pattern of I/O failures."
NOTES["C17"] = "Full statement proved. Auxiliary finding (C17_no_stray_file_on_error_refuted): if writing the backup fails, the incomplete backup file stays behind (gofmt_helpers.go backupFile does not remove it)."
FULL.add("C17")
NOTES["C18"] = "Full statement proved. Auxiliary finding (C18_ties_at_cutoff_by_rank_refuted): among candidates of equal score the cut-off at 100 keeps the ones stored first, not the best-ranked ones (TooLow compares scores only)."
FULL.add("C18")
NOTES["C19"] = "Full statement proved, for every fuzzy matcher with non-negative scores, over byte strings (ASCII case folding)."
NOTES["C20"] = "Finding: handler.go:74-75 closes a streaming request's channel on arrival, so requests after it overtake earlier requests that are still running. Proved: the exact condition under which request i waits for request j (no streaming request in between), hence FIFO without streaming requests."
NOTES["C21"] = "Full statement proved: some step is enabled while a request is unanswered, at most two steps per request, and no channel is closed twice."
NOTES["C47"] = "Full statement proved. Auxiliary finding (C47_output_beside_own_source_refuted): two documents with the same go_package in different directories share one entry of the output map, so the first one's output lands in the second one's directory."
FULL.add("C47")
NOTES["C07"] = "Full statement proved for every history of compilations and invalidations, whatever the compiler reports."
NOTES["C08"] = "Findings: once a file that had linked becomes partially linked or unlinked, looking it up panics on the placeholder left in the result list (cache.go:207); a compilation that fails as a whole after starting on a partially linked file loses that file's result. Proved: all three lookups are exact for well-behaved histories."
NOTES["C09"] = "Proved for linked results and as a frame property. Finding: postInvalidateHook leaves the partial and unlinked results of a deleted file in place, so lookups that accept those keep returning them."
p("C51", "Workspace-wide searches see every current result",
  "A search over the whole workspace visits every file whose linked result (full or partial) is current, and visits nothing else.",
  "every history of compilations and invalidations",
  "depends on the history of each file",
  ["pkg/lsp/cache.go: rangeAllDescriptors/findAllDescriptorsByPrefixLocked", "pkg/lsp/compiler.go: compileLocked"],
  "On the state machine of C07: the searched list against the lookup function.")
NOTES["C51"] = "Proved for linked files, and that only current results are visited. Finding: a partially linked file that never linked before is not visited."
p("C52", "Pragmas are those of the latest compilation",
  "The pragmas known for a file are those of its most recently reported result.",
  "every history of compilations and invalidations",
  "history property",
  ["pkg/lsp/compiler.go: compileLocked", "pkg/lsp/pragmas.go"],
  "Refinement to the latest report.")
NOTES["C52"] = "Full statement proved for reports that mention each path at most once."
p("C53", "Searching names by prefix is exact",
  "Searching the descriptors of a file set by a name prefix returns exactly the declared names with that prefix, whether the prefix is relative to the package, a full name, or a full name with a leading dot.",
  "every set of files, names and every prefix",
  "string prefix logic over all names",
  ["pkg/lsp/cache.go: FindAllDescriptorsByPrefix, FindAllDescriptorsByQualifiedPrefix"],
  "Byte-string model; iff characterisation.")
NOTES["C53"] = "Proved for relative and unqualified prefixes. Finding: with a leading dot, only files whose package itself starts with the prefix are searched, so a prefix that reaches beyond the package name finds nothing."
NOTES["C10"] = "Proved for every interleaving while the stream is attached and the file keeps its URI. Finding (C10_deleted_file_cleared_at_client_refuted): when a file is deleted its path-to-URI mapping is removed (documents.go:62) before its diagnostics are cleared and flushed, and the callback drops reports without URI (diagnostics.go:114-117), so the client shows the deleted file's errors forever."
NOTES["C11"] = "Finding: a flush without a listener consumes the dirty flag (diagnostics.go:228-236, 598-606), and server.go compiles and flushes all files before it attaches the stream, so errors present at start-up are not shown until the file changes. Proved for files reported on or cleared after attaching."
NOTES["C12"] = "Full statement proved, plus completeness when ranges are distinct. Auxiliary finding (C12_all_related_removed_refuted): with several diagnostics at a related range only the first is removed."
FULL.add("C12")
NOTES["C13"] = "Full statement proved, plus the converse for untouched files. Auxiliary finding (C13_coarse_clock_refuted): result ids are clock readings, so two changes within one tick are indistinguishable."
FULL.add("C13")
NOTES["C14"] = "Elevation rule and repeatability proved (pragma text as ASCII). Auxiliary finding (C14_follows_current_pragma_refuted): the elevated severity is written back into the stored diagnostic, so a diagnostic reported once as an error stays one."
FULL.add("C14")
NOTES["C15"] = "Full statement proved for every token list and every outcome of the (unstable) sort."
p("C54", "Tokens of a string literal with escapes cover it exactly",
  "For a string literal that contains escape sequences, the tokens reported for it cover every character of the literal exactly once, and each escape sequence is exactly one token of its own.",
  "every literal and every set of escape sequences in it",
  "off-by-one conditions depend on where the escapes are",
  ["pkg/lsp/semantic.go: inspectStringLiteralWithEscapeSequences"],
  "Columns as naturals, regex matches as an arbitrary ordered list of intervals; tiling predicate.")
NOTES["C54"] = "Finding: semantic.go:761-773 mixes two conventions for the raw text. If it excludes the quotes, the tokens are right iff the literal ends with an escape sequence (exact characterisation proved); otherwise its last character is reported as the closing quote. If it includes the quotes every escape is off by one."
p("C55", "Comment tokens cover the comment",
  "The tokens reported for a comment cover exactly its characters, for single-line, multi-line and pragma comments.",
  "every comment text and position",
  "depends on line structure and lengths",
  ["pkg/lsp/semantic.go: mkcomments, multilineComment"],
  "Coverage predicate on (line, column) against the positions occupied by the text.")
NOTES["C55"] = "Proved for multi-line and ordinary comments. Finding: semantic.go:371 compares the length of the text after the prefix with a length that includes the prefix, so a pragma's value of at most ten characters gets no token (exact condition proved)."
NOTES["C22"] = "Deadlock freedom and a step bound proved for all requests whose lock use is not nested (hover, definition, references, formatting, completion, code actions, edits), in any number, under any schedule. Finding: code lens, document symbols, workspace symbols, inlay hints, document links, semantic tokens, rename and go-to-generated-definition take the read lock again while holding it, which deadlocks with one concurrent edit under Go's RWMutex. In the deployed server requests other than commands are run one at a time (C20), so the reachable instance is go-to-generated-definition (a command) against didChange; the others concern users of the Cache API."
NOTES["C23"] = "Finding: protols/refreshModules returns without unlocking cachesMu if a workspace has no Go language driver (commands.go:166-175); every later request then blocks. Exact condition proved, and that the other commands release the lock."
p("C56", "Reports reach the client in order, at most once",
  "The diagnostics reports a workspace publishes are a subsequence of those it flushed, in flush order; while the workspace is open none is lost.",
  "every interleaving of flushes, sending, receiving, attaching and closing",
  "needs all interleavings of three goroutines",
  ["pkg/lsp/diagnostics.go: Flush, Stream, StreamWorkspaceDiagnostics", "pkg/lsp/server.go: cacheInitLocked, cacheDestroyLocked"],
  "Transition system with the one-element channel; conservation invariant.")
p("C57", "A flush always completes",
  "Publishing diagnostics always terminates, also when the workspace is closed or re-indexed meanwhile.",
  "every interleaving of flushes, sending, receiving, attaching and closing",
  "the blocking interleaving needs a close between two sends",
  ["pkg/lsp/diagnostics.go: Flush, Stream", "pkg/lsp/server.go: cacheInitLocked, cacheDestroyLocked", "pkg/lsp/commands.go: ExecuteCommand (reindexWorkspaces)"],
  "Progress plus bounded work while open; exact characterisation of the blocked states.")
NOTES["C57"] = "Finding: the receiving goroutine stops on cancellation without draining, so a flush with two more reports blocks in the channel send for ever, holding listenerMu, diagnosticsMu and the results lock. Completion while open is proved, and the exact set of blocked states."
NOTES["C24"] = "Full statement proved (kinds as dot-separated paths), for arbitrary diagnostics, import suggestions and analyzer outputs. Remark: the error 'no supported code action' is unreachable because every requested kind is entered into the map (codeactions.go:180)."
NOTES["C25"] = "Proved: other actions kept, all removals kept, nothing invented; for one document every text to be inserted is inserted exactly once. Finding: with several documents equal texts are inserted in only one (the set of seen texts is not per document, codeactions.go:119-130)."
NOTES["C26"] = "Proved for every interleaving: at most one computation; a resolve computes iff the action is available. Finding: the timer is armed before the action is stored (refactor.go:61-70), so if the deadline passes in between the entry is never removed."
NOTES["C27"] = "Exact condition for distinct numbers proved; names proved distinct when no inlined name is taken. Findings: the largest number is computed over plain fields only (refactor.go:709-720), so numbers of map fields, groups and oneof fields can be reused; the replacement name for one inlined field is not checked against the other inlined fields; a message without fields makes the action panic (765); the label of repeated fields is lost."
NOTES["C28"] = "Exact condition proved. Finding: only plain fields are renumbered (refactor.go:846-871), so a map field or oneof field numbered at most the number of plain fields collides."
NOTES["C29"] = "Proved for fewer than 100 names in use. Findings: the 100th candidate is returned unchecked; new message names are compared only with messages, so an enum, service or extension of that name clashes."
p("C58", "Extracting fields loses nothing",
  "Extracting fields into a new message keeps every field exactly once, either in the parent or in the new message, with its name and label; the parent's names and numbers stay distinct, and the new message is numbered 1..n.",
  "every message body and every non-empty selection of its plain fields",
  "combinatorial in positions, numbers and names",
  ["pkg/lsp/refactor.go: extractFields, findNewUnusedFieldName"],
  "Permutation of names and numbers; freshness from C29.")
NOTES["C58"] = "Full statement proved for messages with fewer than 100 field names."
p("C59", "Extraction is offered for sibling fields",
  "The extract action is offered whenever the selection consists of fields of one message, and whatever is offered consists of wholly selected fields of one message.",
  "every sequence of syntax paths in the selection",
  "the failing case depends on the number of selected fields",
  ["pkg/lsp/refactor.go: extractFields"],
  "Fold over the paths; soundness and completeness.")
NOTES["C59"] = "Soundness proved, completeness proved for one field. Finding: refactor.go:486 compares the parent message with the field node of later paths, so with two or more selected fields the action is never offered."
p("C60", "Simplifying repeated options preserves meaning",
  "Simplifying repeated options collects all values of the field, in their order, into one array and changes nothing else.",
  "every scope: any mixture of arrays and single values inside and outside the container option",
  "the outcome depends on which mention comes first and on the container's contents; the repository's test covers one shape",
  ["pkg/lsp/refactor.go: collectRepeatedOptionRefs, calcSimplifyRepeatedOptionsEdits"],
  "Abstract scope; multiset and order of values, other declarations.")
NOTES["C60"] = "Proved when the field's first mention is inside a container that has it as an array. Findings: the documented case (no container yet) and every case whose first mention is outside the container panic, since the first option is removed at 1103-1105 before being looked up at 1115; without an array the container is replaced and its other elements are lost; an array after single values reorders them; in enums, services etc. values are duplicated or lost (replaceWithinParent handles only messages and files). Commas are left out here; see C176, by which even the case proved depends on a comma after the last value of the array."
NOTES["C30"] = "Proved, with minimality, whenever neither package name is a textual prefix of the other except as an enclosing package; type labels proved. Findings: for packages such as foo and foobar the comparison stops in the middle of a part (completion.go:1481-1483) and the inserted name denotes another type; an inner scope that declares the first part captures the name."
NOTES["C31"] = "Strict total order proved; distance zero iff same name, negative iff inside, local package first. Finding: for a file without package, splitting the empty name yields one empty part, so packages (all inside the root) get positive distances."
NOTES["C32"] = "Exactly one preselected item, order and labels kept: proved. Sort texts increase up to 100000 items. Finding: %05d overflows its width at item 100001, which sorts before the one preceding it."
p("C61", "Accepting a completion replaces exactly the word",
  "Applying the edit of a completion item turns the line into itself with the partial word (before and after the cursor) replaced by the completed word.",
  "every line, cursor position inside a word and completed word",
  "column arithmetic in two units",
  ["pkg/lsp/completion.go: completeTypeNamesFromList, completeImports, completeEnumValues, completePackageNames, findPartialNames", "pkg/lsp/range.go: adjustColumn"],
  "Code points with byte and UTF-16 lengths; edits on columns.")
NOTES["C61"] = "Proved for ASCII words. Finding: the range is computed from byte lengths while columns are UTF-16 units, so for import paths with other characters text after the word is removed too."
NOTES["C33"] = "Full statement proved, for any way of splitting the fields into groups (the logarithmic heuristic is an oracle)."
NOTES["C34"] = "Proved for every order sort.Slice may return: imported files, commented imports and order kept; files imported once unchanged. Findings: of `import \"a\"; import public \"a\"` only the plain import survives, so public is lost (formatter.go:315-328 keeps the first of the descending modifiers); duplicates with comments are all printed; the comparison function is not a strict weak order (292-314), which for insertion sort (at most 12 imports) is proved harmless."
NOTES["C35"] = "Exact condition proved. Finding: a single-quoted literal with an unescaped double quote is re-quoted without escaping it (writeStringLiteral), which breaks the file or changes its meaning."
NOTES["C36"] = "Exact condition proved for line comments; block comments proved. Finding: a line comment containing */ becomes a block comment that ends early."
p("C62", "Block comments keep their text and reformatting them is idempotent",
  "A comment written on its own line keeps every non-blank character in order and stays one comment; formatting the result again, at any indentation, changes nothing.",
  "every comment text and indentation",
  "depends on the indentation and prefixes of all lines of the comment",
  ["pkg/format/formatter.go: writeComment, computeIndent, unindent"],
  "Visible-character projection; the line transformation is a projection.")
NOTES["C62"] = "Text and unity proved for all comments, idempotence for comments without lines that are blank but contain characters other than spaces and tabs. Finding: such a line (a carriage return in files with Windows line ends) counts as indentation 0 in computeIndent, and vanishes on output, so the second formatting moves the comment again."
p("C63", "Formatting keeps the order of repeated file options",
  "Formatting sorts file options by name, standard ones first, and keeps the values of an option given several times in their order.",
  "every list of file options",
  "sort.Slice is only stable by accident for small inputs",
  ["pkg/format/formatter.go: writeFileHeader"],
  "Insertion sort as in Go's sort for at most 12 elements; contract of sort.Slice beyond.")
NOTES["C63"] = "Proved up to 12 options. Finding: beyond that sort.Slice does not promise stability, so the values of a repeated custom option may be permuted, which changes its value; the refutation is of the documented contract of sort.Slice, not of one run of it."
FULL.add("C33")
NOTES["C37"] = "Proved for every history without conflicting paths, and unconditionally for all histories of file events inside a Go module or a folder without one (with the exact set of known paths); without any assumption both maps hold the latest pair recorded. Findings: files outside the module's directory can share a path with one inside, and deleting either makes the other unresolvable (resolver.go:195-199 deletes by path without comparing URIs); PathToURI cuts paths at ';', so files with ';' in their name are never found."
NOTES["C39"] = "Full statement proved for lines of the canonical form. Findings outside of it: a trailing comment with quotes becomes part of the package path (LastIndexByte), directives in block comments are taken, indented directives are missed, an earlier semicolon on the line defeats the cut at the alias."
p("C64", "An import path resolves to the document that has it",
  "If a readable document of the workspace is known by a path, importing the path yields that document, whatever Go modules exist, and asking again yields the same document.",
  "every state of the resolver's maps, environment and sequence of lookups",
  "depends on the order of four sources and on what earlier lookups recorded",
  ["pkg/lsp/resolver.go: FindFileByPath, findFileByPathLocked, checkWellKnownImportPath, checkFS, checkGoModule, checkGlobalCache"],
  "Lookup functions over maps and an arbitrary environment; invariant over lookup sequences.")
NOTES["C64"] = "Proved outside google/ and, for repeated lookups, when module files are readable and at most 1 MiB long. Findings: the registry reports protoregistry.NotFound, which is not os.ErrNotExist, so every path under google/ that is not built in fails at once, even if the workspace or a Go module (googleapis) has it; module files over 1 MiB are served once and refused afterwards; a failed synthesis from Go code (503, wrapping a nil error) is a hard failure that skips the gogo.proto fallback."
p("C65", "The URI of a resolved path denotes the document that was served",
  "After a path was resolved, converting the resolved path to a URI gives the document (file, built-in file, synthesized file) whose contents were served.",
  "every environment and sequence of lookups",
  "needs all combinations of sources and cached entries",
  ["pkg/lsp/resolver.go: PathToURI, findFileByPathLocked, checkGlobalCache, checkGoModule"],
  "Same model; invariant on the synthetic files.")
NOTES["C65"] = "Proved for all sequences of lookups. Finding: a workspace file created under a google/ path takes over the path's URI although the built-in text continues to be served, so definitions and references point into the wrong file."
p("C66", "Imports relative to the importing file work",
  "An import that names a file below the importing file's directory, and is not a known path, is served from that file.",
  "every file layout, environment and state",
  "depends on the file layout",
  ["pkg/lsp/resolver.go: translatePathLocked, FindFileByPath"],
  "Path algebra on component lists.")
NOTES["C66"] = "Proved for files of the local Go module and of the module cache. Finding: for workspaces without a Go module the translated path is made relative to the importing file's directory again (803), i.e. it is the path that just failed, so such imports never resolve outside the root folder. The lookup through generated code (296-306) is not modelled."
p("C67", "The import path of a file follows from its place in the Go module",
  "A file in a Go module is known by the module path followed by its path in the module directory; different files get different paths.",
  "every module directory, module path, file and text",
  "path arithmetic over all layouts",
  ["pkg/lsp/resolver.go: LookupGoModule", "pkg/lsp/golang.go: ImplicitGoPackagePath"],
  "filepath.Rel, Dir, Base and Join on component lists.")
NOTES["C67"] = "Proved inside the module. Findings: filepath.Rel succeeds for any two absolute paths, so the go_package option is never consulted while there is a module (the code after 563 is dead for such files), and files outside the module directory get an invented package."
p("C68", "A suffix-matched import candidate lies where the paths agree longest",
  "The candidate proposed for an import is the import laid over the importing file's directory where they agree, at the place where they agree in most components.",
  "every import and file name",
  "needs repeated directory names in particular positions",
  ["pkg/lsp/resolver.go: FindSuffixMatchedPath"],
  "Array with in-place appends.")
NOTES["C68"] = "That the result is such a place, and exists iff there is one: proved. Longest agreement proved when the import does not repeat its first component. Finding: append(append(sourceParts[:i], ...)) (867) overwrites the array being searched, so scores of later places are wrong and a worse place can win."
NOTES["C38"] = "Proved: the exact set of workspaces that can answer over all map orders, that a document in a folder (not under vendor...) always gets an answer, and that the answer encloses the document when folder paths are prefixes only of their contents. Findings (server.go:233-241): a folder /w/app also serves /w/app2; with nested folders the answer depends on map order; documents in /w/vendored are in no workspace."
p("C69", "Folder changes take effect",
  "After a workspace-folder notification the server serves the previous folders without the removed ones, plus the added ones; reindexing keeps the folders and replaces every cache; after shutdown there are none.",
  "every history of initialization, folder changes, reindexing and shutdown",
  "depends on the combination of added, removed and known folders",
  ["pkg/lsp/server.go: Initialize, DidChangeWorkspaceFolders, cacheInitLocked, cacheDestroyLocked, shutdown", "pkg/lsp/commands.go: protols/reindexWorkspaces"],
  "State machine over folder maps; set characterisation by induction over histories.")
NOTES["C69"] = "Proved for every history, with the exact condition for folder changes (no folder both added and removed). Finding: removals are processed after additions (server.go:783-793), so a notification that removes and re-adds a folder, e.g. to rename it, drops the workspace."
p("C70", "Background tasks end with their workspace",
  "At every moment the diagnostics of exactly the served workspaces are being published: each served workspace has its background tasks, and no other tasks are running.",
  "every history of initialization, folder changes, reindexing and shutdown",
  "leaks depend on histories",
  ["pkg/lsp/server.go: cacheInitLocked, cacheDestroyLocked"],
  "Invariant relating caches, cancel functions and running tasks.")
NOTES["C70"] = "Proved: no cancel function is missing, served workspaces have their tasks, and the exact condition for the absence of leaks (no folder added while known). Finding: adding a known folder again overwrites its cancel function (server.go:83), so the old cache publishes diagnostics for ever, also after shutdown."
p("C71", "Reindexing keeps what is in the editor",
  "After reindexing, exactly the documents that were open are open, with their text and version.",
  "every set of open documents and every state of the disk",
  "depends on which documents are saved or exist on disk",
  ["pkg/lsp/commands.go: protols/reindexWorkspaces"],
  "Replayed modifications per overlay.")
NOTES["C71"] = "Proved: exact condition for a document and its text to be kept, exact versions, nothing else is opened. Findings (commands.go:117-146): documents that are not on disk yet are dropped with their text; saved documents are reopened with the disk file's version (dv, 0 in the refutation as for gopls disk files), which is below the client's."
p("C72", "The set of workspaces is never read while it changes",
  "No request iterates over the set of workspaces while another one modifies it (which would stop the server).",
  "every set of concurrent requests and every schedule",
  "concurrency",
  ["pkg/lsp/server.go: CacheForURI, CacheForWorkspace, Symbol, shutdown, DidChangeConfiguration, DidChangeWorkspaceFolders", "pkg/lsp/commands.go: protols/reindexWorkspaces"],
  "Transition system with a read-write lock; invariant that modes, lock state and counters agree.")
NOTES["C72"] = "Proved for any number of requests except workspace/symbol and shutdown, which do not lock (server.go:857, 772). Since commands run concurrently with later requests (C20), a symbol search during a reindexing command can stop the process."
p("C73", "Document links lead to the imported files and change nothing",
  "Each import that can be resolved gets a link to the file it resolves to, no other links are returned, and the request does not change the compiled file.",
  "every list of imports and dependencies",
  "needs an implicit dependency in a particular position and a shared array",
  ["pkg/lsp/links.go: ComputeDocumentLinks", "pkg/lsp/inlayhints.go: computeImportHints"],
  "Slices with in-place append.")
NOTES["C73"] = "Links: proved when the dependencies are those of the imports plus possibly the implicit one. Read-only: exact condition proved. Finding: append(dependencyPaths[:i], ...) (links.go:50, inlayhints.go:131) overwrites the compiled file's dependency list, under a read lock only, unless the implicit dependency is last; the file then lacks descriptor.proto and lists another import twice. With fewer dependencies than complete imports the request panics (proved)."
p("C74", "Import hints are right and can be accepted",
  "A hint is shown for exactly the imports that resolve to another path; what is shown inside the quotes completes the import to that path; accepting the hint replaces the import by that path.",
  "every list of imports and dependencies and every line layout",
  "column arithmetic over all layouts",
  ["pkg/lsp/inlayhints.go: computeImportHints", "pkg/lsp/range.go: adjustColumns"],
  "Line as byte list, hint columns.")
NOTES["C74"] = "Full statement proved for imports on one line (given the documented convention that node end positions are exclusive)."
p("C75", "Edits and generation touch only files of the workspace",
  "A file is accepted for renaming, code lenses and generation exactly if it is a real, regular, readable file inside the workspace folder that does not come from the module cache or the built-in files.",
  "every file and workspace folder",
  "depends on folder names that are prefixes of one another",
  ["pkg/lsp/resolver.go: IsRealWorkspaceLocalFile"],
  "Decision function over facts about the file.")
NOTES["C75"] = "Proved except for the folder boundary. Finding: strings.HasPrefix(filename, workspaceRoot) (resolver.go:608) accepts files of a sibling folder whose name starts like the workspace folder."
NOTES["C48"] = "Full statement proved, with the fixed points, idempotence, the documented rule for snake-case names and the names of nested types. Finding: the mapping is not injective (foo_bar and FooBar), so two fields of one message may be looked up under one Go name."
FULL.add("C48")
p("C76", "Go to generated definition looks up the declared name",
  "For every message, enum, enum value, field, extension, service and method the declaration that is looked up in the generated Go code is the one the Go generators declare for it.",
  "every element and every name",
  "naming rules over all names and nestings",
  ["pkg/lsp/generated.go: FindGeneratedDefinition, GoIdent, lookupObjDecl"],
  "Lookup names against the generators' naming rules; exact condition.")
NOTES["C76"] = "Exact condition proved. Findings: enum values whose name is a Go keyword or starts with an underscore, members of oneofs (generated as wrapper types), fields renamed because of a conflict (Reset, String, ...) and extensions declared inside messages (E_Outer_name) are never found."
p("C77", "Generated files belong to the document",
  "The generated Go files found for a document are those in its Go package that were generated from it.",
  "every package directory, comment layout and document",
  "depends on comment groups and on an inverted condition",
  ["pkg/lsp/golang.go: FindGeneratedFiles, ParseGeneratedPreamble"],
  "Preamble parser and file filter.")
NOTES["C77"] = "Proved: the source line is read correctly; the files found are exactly the files of the package that carry the generated-code marker. Findings: the check is inverted (golang.go:133, !ok), so the source is compared only for files without a preamble, and all generated files of the package are returned; the versions in the preamble are never recorded (the inner loop starts at the '// versions:' line itself and stops there, golang.go:439)."
p("C78", "The embedded descriptor of a generated file is found",
  "The variable looked up for the raw descriptor in a generated Go file is the one the generator declares for that source path.",
  "every source path",
  "string mapping over all paths",
  ["pkg/lsp/golang.go: SynthesizeFromGoSource"],
  "Lookup name against the generator's rule; exact condition.")
NOTES["C78"] = "Exact condition proved (paths of letters, digits, underscores, slashes and dots that start with a letter). Finding: for other paths, e.g. with a dash, the variable is not found (golang.go:294 replaces only slashes and dots)."
p("C79", "Imports are resolved through generated code only if unambiguous",
  "An import is resolved through the Go imports of generated files exactly if one imported package ends with the import's directory; the result does not depend on the order or number of files.",
  "every set of Go imports and every import path",
  "all combinations of import paths",
  ["pkg/lsp/generated.go: tryResolvePathToGeneratedImport"],
  "Candidate list with duplicates removed.")
NOTES["C79"] = "Proved for the textual suffix. Finding: the suffix is not matched at a component boundary (generated.go:173), so example.com/myapi is taken for directory api and makes example.com/api ambiguous."
p("C80", "The Go package option is understood",
  "The option path;name gives the path and the name, a path alone leaves the name open, a bare name is the name of the package at the path implied by the document's place, and without an option that path is used with any name.",
  "every option text and every place of the document",
  "case distinction over all texts",
  ["pkg/lsp/golang.go: FindGeneratedFiles"],
  "Decision function.")
NOTES["C80"] = "Proved except for modules whose path is a single word. Finding: then the implied path is taken for a package name (golang.go:106) and files of a differently named package are not found."

NOTES["C40"] = "Exact condition proved: the literal denotes the value iff the value has no double quote. Finding: a double quote is printed as a lone backslash (print.go:2094), so the literal is unterminated or means something else."
NOTES["C41"] = "Exact condition proved for every byte string and every IsPrint that is right on ASCII: the literal denotes the value iff it has no double quote. Finding: as C40 (print.go:2140)."
NOTES["C42"] = "Proved for messages and extension ranges. Finding: enum ranges include their end (protoreflect.EnumRanges), but are printed as if they did not (print.go:1330), so every enum range of more than one number loses its last number; exact condition proved."
NOTES["C43"] = "The dropped prefix is characterised exactly; resolution is proved exactly when no inner scope defines the first component of the printed name. Finding: names are shortened without looking at what is defined (print.go:809), so a shadowed name resolves to something else."
FULL.add("C44")
p("C81", "The printer's writer loses nothing but blanks",
  "The text written is the concatenation of all writes, except that one trailing blank is left out where the next write starts with a semicolon or comma and at the very end; each write reports all its bytes.",
  "every sequence of writes",
  "state carried between writes",
  ["pkg/format/protoprint/print.go: writer.Write"],
  "Invariant relating the output to the list of writes.")
FULL.add("C81")
p("C82", "Printed comments are comments",
  "A comment is printed as line comments or as one block comment that ends at its last mark; every line of the comment appears, up to one added blank in front and blanks at the end; printing never fails.",
  "every comment text, indentation, preference and writer state",
  "the text of a comment is arbitrary",
  ["pkg/format/protoprint/print.go: printComment, indent, maybeIndent"],
  "Scanner for closing marks; split of the output into lines.")
NOTES["C82"] = "Proved for both styles. Finding: the comment that consists of two newlines (two empty // lines) makes the printer panic with an index out of range when it is printed inline or with multi-line style (print.go:2668); exact condition proved."

NOTES["C45"] = "Full statement proved for the sort: it ends on every graph (also cyclic ones), crashes exactly if an import is missing, and otherwise lists each file once, after every import that does not lead back. Finding: the driver sorts only files that do not use editions (externalapi.go:37), so compiling a proto2/proto3 file that imports an editions file panics with a nil dereference (transform.go:21); exact condition proved."
NOTES["C46"] = "Names are always restored; the exact condition for imports is proved. Findings: imports of a file whose own name has no URI or already is the original name are not restored (transform.go:40, 44); the driver restores workspace-local files twice (driver.go:206-207), which can rename an import a second time."
p("C83", "Workspace-local descriptors are the files of the workspace",
  "The workspace-local descriptors returned by the SDK's driver are, in dependency order, exactly those of existing files below the workspace folder.",
  "every set of compiled files, every workspace folder and every current directory",
  "depends on directories and the process environment",
  ["sdk/driver/driver.go: Driver.sortAndFilterResults"],
  "Relative paths as component lists; exact condition.")
NOTES["C83"] = "Exact condition proved. Finding: existence is tested with the workspace-relative path (driver.go:234), i.e. relative to the current directory of the process, so the statement holds in the workspace folder only."
p("C84", "Go packages are inferred consistently",
  "A file without go_package gets that of the files in its directory with the same proto package, or its directory if there is none; if the directory mixes packages an error is reported; the order of the files does not matter.",
  "every list of files",
  "depends on all combinations of files and their order",
  ["sdk/plugin/protogen.go: New"],
  "Fold with the map of inferred packages; invariant relating it to the directory.")
NOTES["C84"] = "Proved for directories whose files agree; always: no error means every file has a package taken from its directory. Findings: once a package has been inferred for a directory it is used for later files of other packages without a check (protogen.go:69), so the order of the files decides between an error and a wrong package."
p("C85", "Completing a go_package keeps its name",
  "A go_package that is a bare name is completed with the file's directory as import path and keeps its package name.",
  "every directory and name",
  "string function over all inputs",
  ["sdk/plugin/protogen.go: New (sanitizePkg)"],
  "Exact condition.")
NOTES["C85"] = "Import path proved; exact condition for the name. Finding: the directory is compared by textual suffix (protogen.go:43), so go_package bar in directory foobar becomes package foobar; an option name;alias is mangled."
p("C86", "Creating the generator plugin does not crash",
  "For every set of documents to generate, creating the plugin returns a plugin or an error.",
  "every import closure, every set of targets and every mapping of names",
  "depends on how synthesised names combine",
  ["sdk/plugin/protogen.go: New", "sdk/util/transform.go: RestoreDescriptorNames"],
  "protogen's requirements as a predicate on names; proof that restoring keeps them.")
NOTES["C86"] = "Proved when targets are not renamed, restored names stay distinct and files whose name is original import only such files. Findings: each condition is needed: targets are looked up by the name before restoring (protogen.go:125), and protogen's error becomes a panic (protogen.go:135)."
p("C87", "Every diagnostic of a compilation is reported",
  "Compiling with the SDK's driver gives one message per diagnostic with its severity, line and text; warnings and errors show the source line with the range highlighted; the error flag is set exactly if there is an error; compiling never crashes.",
  "every document content and every list of diagnostics",
  "positions at the ends of lines and files",
  ["sdk/driver/driver.go: Driver.Compile"],
  "Offsets of lines by induction on the content; slices with explicit panics.")
NOTES["C87"] = "Proved for single-line diagnostics on all lines but the last. Findings: a warning or error on an empty last line makes Compile panic (slice bounds, driver.go:164); the last character of a file without final newline is cut off; diagnostics over several lines are not reported (driver.go:112); exact conditions proved."
p("C88", "Code is generated for the files below the search directories",
  "With the default strategy code is generated exactly for the workspace's files below one of the search directories.",
  "every set of files, every working directory and every list of search directories",
  "path comparison over all names",
  ["sdk/codegen/generator.go: GenerateCode"],
  "Exact condition; containment for component paths.")
NOTES["C88"] = "Files below a search directory are generated if import directories are unambiguous. Findings: directories are compared by textual prefix (generator.go:125), so api includes apiv2 and an absolute directory with a trailing slash includes nothing; two places of one import directory are confused (generator.go:115)."
p("C89", "Generated files are placed next to their sources",
  "The path of a generated file is in the directory of the source file it was generated from.",
  "every set of source files and every output name",
  "depends on go_package and import paths",
  ["sdk/codegen/generator.go: GenerateCode"],
  "Lookup in the map of source directories.")
NOTES["C89"] = "Proved for outputs named after the import directory of their source. Findings: with another go_package, and for sources without directory, the path is relative to the current directory (generator.go:178-184; the key of such sources is \".\", that of the output \"\")."
p("C90", "A generated file can be read",
  "Reading a generated file through its reader interface to the end gives its content.",
  "every content and every choice of buffer sizes",
  "contract over sequences of calls",
  ["sdk/codegen/generator.go: GeneratedFile.Read"],
  "io.ReadAll as a loop over reads.")
NOTES["C90"] = "False for every content (C90_never_ends): Read keeps no position and never reports the end (generator.go:41), so io.ReadAll and io.Copy never finish."
p("C91", "Running an external plugin ends",
  "Running an external generator plugin ends with the plugin's complete response or an error, whatever the size of request and response.",
  "every request, every pipe capacity and every interleaving of the two processes",
  "concurrency with bounded buffers",
  ["sdk/codegen/generators/external/generator.go: extGenerator.Generate"],
  "Transition system of two processes and two bounded pipes; invariant, progress and measure.")
NOTES["C91"] = "Proved for plugins that read the whole request before they answer. Finding: the request is written completely before the response is read (generator.go:71-79), so a plugin that answers while it reads deadlocks on requests larger than the pipes, for every capacity."
p("C92", "Searching finds the sources",
  "Searching directories finds each .proto file below them once, except in vendor, node_modules and bazel directories and in directories marked DO_NOT_BUILD_HERE.",
  "every directory tree and every list of roots",
  "recursion with early exit over all trees",
  ["pkg/sources/search.go: SearchDirs"],
  "Tree induction; exact inductive characterisation of what is visited.")
NOTES["C92"] = "Exact characterisation proved; the full statement for a single existing root without markers. Findings: a marker only hides what sorts after it (search.go:36); overlapping roots give duplicates; a missing root panics on a nil entry (search.go:20); a root named vendor or node_modules is skipped."
NOTES["C49"] = "Proved: the result is always the first meaningful token touching the cursor, and the containing token whenever the cursor is strictly inside it. Findings: at a boundary between adjacent tokens the one that ends there is returned (search.go:590), so the statement fails for a cursor before the first character; of nested tokens the outer one is returned although the function promises the narrowest."
NOTES["C50"] = "Full statement proved: once each at every moment, all of them at the end, the same set for every schedule, progress, a bound on the number of steps, and no send on the closed channel."
p("C93", "The innermost nodes around a selection are found",
  "For a selected range the search returns exactly the declarations of greatest depth that the walk over the range reaches, in source order, and reports nothing found exactly if there is none.",
  "every syntax tree, every range filter and every set of recorded kinds",
  "the list is pruned while walking; must be right for all trees",
  ["pkg/lsp/search.go: visitEnclosingRange, DefaultEnclosingRangeVisitor, findPathsEnclosingRange"],
  "Tree induction; the pruned list's last run equals the filter by maximal depth.")
NOTES["C93"] = "Full statement proved; the walker's range filter is an arbitrary predicate."
p("C94", "The innermost declaration at a position is found",
  "For a position the search returns the deepest declaration that holds the position; declarations hold the positions from their first character up to their closing token.",
  "every syntax tree and every position",
  "all trees and positions",
  ["pkg/lsp/search.go: findPathIntersectingToken"],
  "Tree induction; exact interval lemmas for positions.")
NOTES["C94"] = "Proved for what the visitor records: the first deepest candidate; half-open intervals for closed declarations, closed intervals otherwise. Finding: the condition for rpcs repeats Semicolon != nil (search.go:712), so an rpc with a body is never the result and a cursor in it finds the service instead."
p("C95", "A rename is refused unless the new name can be used",
  "Renaming accepts a new name only if it is an identifier and nothing is called that in the symbol's scope; the symbol stays in its scope and gets exactly that name.",
  "every symbol, every new name and every set of existing names",
  "the names a user may type are unbounded",
  ["pkg/lsp/rename.go: Rename"],
  "Characterisation of the accepted names by their components.")
NOTES["C95"] = "Proved: accepted names are free, keep the scope, and consist of identifiers separated by dots; without dots they are identifiers. Finding: only the joined full name is checked (rename.go:94), so a new name with dots is accepted and written into every reference."
p("C96", "A rename changes every use and nothing else",
  "The edits of a rename, applied to the documents, give exactly the documents in which every use of the symbol has the new name, with qualifications kept; all edits are in workspace documents and if one use cannot be edited nothing is changed.",
  "every workspace, every arrangement of uses, every order of references",
  "ranges over all documents and positions",
  ["pkg/lsp/rename.go: Rename"],
  "Documents as text with uses; induction on the document with splicing of edits; permutation invariance.")
NOTES["C96"] = "Proved for every workspace without qualified rpc types. Findings: the range of an rpc's request or response type includes its qualification (rename.go:165), which the edit removes; a reference whose last component has no valid position, or a field reference with another kind of name, is silently left (rename.go:127-147)."
p("C97", "After a rename references mean the renamed symbol",
  "After the edits of a rename every reference to the symbol resolves to it under its new name, and references to other symbols resolve as before.",
  "every set of definitions, every scope of a reference and every new name",
  "name resolution over all nestings",
  ["pkg/lsp/rename.go: Rename"],
  "Scoping as search from the innermost scope outwards; exact condition for capture.")
NOTES["C97"] = "Proved exactly when: a simple reference still resolves to the symbol if and only if no scope between has a member of the new name. Findings: only the symbol's own scope is checked (rename.go:99), so inner declarations capture renamed references and the renamed symbol captures references to outer ones."
p("C98", "What prepareRename offers, rename does",
  "PrepareRename offers the symbol's name exactly for declarations whose document is in the workspace and parses; where nothing is offered rename fails; where it is offered rename fails only for a bad or taken name, an unknown source or a reference that cannot be edited.",
  "every symbol, workspace and new name",
  "the two requests are separate code paths",
  ["pkg/lsp/rename.go: PrepareRename, canRename, Rename"],
  "Exact conditions on both sides.")
NOTES["C98"] = "Full statement proved."
p("C99", "References to a package are found by component",
  "Asking for references at a component of a package name returns, for each file whose package starts with the same components (at the last component: whose package is the same), the range of these components, once per file; hovering shows the same name and range; where a reference is found from either side it is found from the other.",
  "every set of files, every package name and every component",
  "names that share a textual prefix, any nesting",
  ["pkg/lsp/packages.go: TryFindPackageReferences, FindPackageNameRefs, tryHoverPackageNode"],
  "Names as component lists; join and split are inverse; exact membership.")
NOTES["C99"] = "Exact result proved for indexes that search by component. Findings: the relation is not symmetric (package foo; is found from foo.a but not the other way round, packages.go:57); simple names are not compared at all in a prefix search (packages.go:98), compound ones are."
p("C100", "References are complete and the declaration is optional",
  "References to a symbol are the declaration, first and only if it is asked for, and one location for every reference in a document with a URI; for a package, leaving out the declaration leaves out exactly the document asked in.",
  "every list of references, every set of documents",
  "any number of documents and references",
  ["pkg/lsp/references.go: FindReferences, FindReferenceLocationsForTypeDescriptor"],
  "Exact result lists.")
NOTES["C100"] = "Full statement proved; the search for the references itself is C50."
p("C101", "The outline shows the file",
  "The document outline shows every declaration of the file, inside the declarations that contain it, in the order of the source, once, with ranges nested as the protocol requires.",
  "every file of any nesting",
  "recursive structure of any depth",
  ["pkg/lsp/symbols.go: documentSymbolsForFileLocked, messageSymbols, enumSymbols, extendSymbols, serviceSymbols"],
  "Induction on declarations; equality of the list of shown and of declared names.")
NOTES["C101"] = "Proved: what is shown is a sublist of what is declared; equal for files without oneofs, groups and unfinished fields; types are always shown unless in groups; ranges nest. Findings: fields of oneofs (symbols.go:161) and groups with everything in them are missing."
p("C102", "Code lenses offer to generate workspace files",
  "Lenses are offered exactly for files of the workspace without the nogenerate pragma: for the file, for the files of its package if it has one, and for the workspace; only files of the workspace are concerned.",
  "every set of files and packages",
  "any number of files",
  ["pkg/lsp/codelens.go: ComputeCodeLens"],
  "Exact conditions.")
NOTES["C102"] = "Proved except the last part. Finding: the package lens includes files outside of the workspace (codelens.go:44), for which the command then writes files next to them."
p("C103", "Base64 input is decoded",
  "The decode command given a message in standard or URL base64, padded or not, with white space around it, decodes exactly that message.",
  "every message, every encoding, all surrounding white space",
  "all byte strings; text that is valid in several encodings",
  ["pkg/protols/commands/decode.go: readMaybeBase64AndTrim, looksLikeBase64"],
  "A separate encoder; the alphabets agree where both decode; induction by groups of three bytes.")
NOTES["C103"] = "Round trip proved for all four encodings. Finding: base64 broken into lines, as base64(1) prints it, is not decoded (decode.go:181) and read as a binary message."
p("C104", "Binary input is decoded as it is",
  "The decode command given the bytes of a message decodes exactly these bytes; it reports missing input exactly if there is only white space.",
  "every byte string",
  "all byte strings",
  ["pkg/protols/commands/decode.go: readMaybeBase64AndTrim"],
  "An exact condition, and witnesses.")
NOTES["C104"] = "The exact condition is proved; the statement itself is false. Findings: every message that starts or ends with a byte that is white space is cut (decode.go:192), among them every message that starts with a length-delimited field 1 (tag 0x0A); a message all of whose bytes are base64 digits is decoded as base64."
p("C105", "The message type is chosen predictably",
  "A full name always selects that message; otherwise all messages with that simple name are meant, otherwise all whose full name contains the text ignoring case; one is used, of several the user chooses; the order of files does not matter; for an unknown type the wire format is shown.",
  "every list of messages and every text",
  "all names, all orders",
  ["pkg/protols/commands/decode.go: BuildDecodeCmd"],
  "Filters as the specification; permutations.")
NOTES["C105"] = "Proved for messages not declared in others, except the last part. Findings: messages declared in others are not among those chosen from (pkg/lsp/externalapi.go:89-95), so the full name of one is not found or selects another message that contains it; the help text promises the wire format for unknown types, the command fails instead."
p("C106", "Files are formatted independently",
  "The fmt command formats all named files concurrently; when it is done each file that parses is formatted and no other file has changed, whatever the schedule and however often a file is named.",
  "all sets of files, all schedules",
  "all interleavings of the goroutines",
  ["pkg/protols/commands/fmt.go: BuildFmtCmd", "pkg/format/format.go: FileInPlace", "pkg/util/gofmt_helpers.go: OverwriteFile"],
  "Invariant per goroutine over all schedules.")
NOTES["C106"] = "Proved for files named once; at any moment before the end a file is old, formatted, or formatted with an old ending. Finding: a file named twice can be damaged although both goroutines succeed."
p("C107", "Imports link to the files they resolve to",
  "Each request for document links returns one link for each complete import whose file has a URI, from its literal to that file, whatever was requested before; the request changes nothing and does not crash.",
  "every list of imports and recorded dependencies, every history of requests",
  "histories of requests that share one mutable list",
  ["pkg/lsp/links.go: ComputeDocumentLinks", "pkg/lsp/inlayhints.go: computeImportHints"],
  "The slice append as a function on the shared list; an invariant over request histories; exact conditions for crashing and for changing the list.")
NOTES["C107"] = "Links proved for all histories; exact conditions for the rest. Findings: removing the implicit descriptor.proto with append (links.go:50) overwrites the file descriptor's own list under the read lock, so the dependency is lost and the last one duplicated; an import that resolves to google/protobuf/descriptor.proto under another name makes both requests crash."
p("C108", "Import hints show and apply the resolved path",
  "A hint is shown exactly for imports that resolve to another path; shown inside the literal it makes the literal read as that path, otherwise it is that path; accepting it makes the literal that path, after which no hint is shown.",
  "every import, path, line and history of requests",
  "all paths and positions",
  ["pkg/lsp/inlayhints.go: computeImportHints"],
  "Lines split around the literal.")
NOTES["C108"] = "Full statement proved, for literals of one piece in lines where columns are characters."
p("C109", "Formatting does not lose text",
  "A formatting request is answered for the document's current text: with no edits if it does not parse or opts out, otherwise with edits to its formatted form.",
  "every schedule of changes, compilations and requests",
  "interleavings of the request's reads with changes",
  ["pkg/lsp/format.go: FormatDocument", "pkg/lsp/documents.go: LatestDocumentContentsWellFormed, GetMapper, DidModifyFiles"],
  "Atomic reads interleaved with the steps of a change; induction over the schedule.")
NOTES["C109"] = "Proved while no change is under way, and always: nothing but the formatted form of some earlier text is written. Finding: the check, the text and the syntax tree are read at three moments without a common lock, so a change in between makes edits that take back what was typed (schedules that allow it: C20)."
p("C110", "Formatting writes back the same file",
  "The text produced by formatting a file reads as that file: every word of every declaration is written, in the declared order and spelled as in the source (quotes of string literals apart); only optional separators and brackets may be added or left out, file options and imports are gathered at the front and a repeated import may be dropped, and the text is lexically complete.",
  "every well-formed syntax tree with any comments and white space, every way to sort imports and options, every column grouping decision",
  "trees are unbounded and the writer's state (pending blanks, indentation, compact mode) makes every token depend on what came before",
  ["pkg/format/formatter.go: formatter, writeFile, writeField, writeCompactOptions, writeMessageLiteral, writeArrayLiteral, writeCompountIdentForFieldName, writeInline, writeStart, writeLineEnd", "pkg/format/column_format.go: columnFormatElements"],
  "A lexer automaton as specification; a Hoare logic over the writer state that tracks the lexical state and the words written; induction over values and declarations.")
NOTES["C110"] = "Proved for all trees but those the formatter gets wrong. Findings: the leading dot of an unlabelled field type is written twice; options after a string of several literals are dropped when the list stays on one line; of several package declarations only the last is kept. The 16 unit tests of the formatter are replayed in FormatTree/Cases.v."
p("C111", "Formatting a valid file succeeds",
  "Formatting a file without syntax errors neither crashes nor reports an error.",
  "every well-formed syntax tree",
  "the error depends on the balance of indentation over the whole file",
  ["pkg/format/formatter.go: P, writeCompoundStringLiteral, Out, In", "pkg/format/column_format.go: columnFormatElements"],
  "Crash flag carried through the Hoare logic of C110; a second Hoare logic over the pending and the current indentation (FormatTree/Balance.v); computed counterexamples.")
NOTES["C111"] = "No crash is proved for the trees of C110. Findings: a last multi-line compact option that is a string of several literals without a trailing comma dereferences a nil comma; two strings of several literals in a one-line message literal make Format report an indentation error for a valid file, and so do two nested literals of which one starts its lines deeper than the other. No other file is refused: when the literals of each declaration break into lines at one depth there is no error and the indentation ends at the margin."
p("C112", "Formatting keeps every comment",
  "Every comment of the source is in the formatted text, once.",
  "every well-formed syntax tree with any comments",
  "comments may be attached to any token",
  ["pkg/format/formatter.go: writeStart, writeInline, writeBodyEnd, writeLineEnd, writeOptionName, writeRPC, writeNode", "pkg/format/column_format.go: columnFormatElements"],
  "For every writer, the comments it is given that its output shows; composed over the tree by induction; the places where nothing is claimed are listed in CommentSpec.v. Computed counterexamples for these.")
NOTES["C112"] = "Proved: a comment outside the places listed in CommentSpec.file_lost is shown in the output (a comment with the same content is in the text). Findings, each a refutation: lost are the comments inside the braces of a method without options, the comment after a method without options (`rpc A(B) returns (C); // x`), comments of empty declarations, the comment after a semicolon that follows a closing brace, comments around the one-token value of an option, comments after a dot of an option name. A comment after an option name in a list over several lines is written twice, and doubles again every time the file is formatted."
p("C113", "Source printed for a descriptor declares what the descriptor declares",
  "The text printed for a file descriptor without source information parses, and its messages, fields, oneofs, extensions, enums, services, options, defaults, ranges and reservations, with every name resolved where it stands, are those of the descriptor.",
  "every file descriptor, every sort of its elements, qualified names forced or not",
  "descriptors are unbounded and nested; the printer skips elements it has printed elsewhere (groups, oneof fields, extensions of one message, reserved runs)",
  ["pkg/format/protoprint/print.go: printFile, printMessageBody, printField, printExtensions, printOneOf, printEnum, printService, printOptionsLong, printOptionsShort, extensionRanges, reservedRanges", "pkg/format/protoprint/message_literal.go: messageLiteralToString", "pkg/format/sort.go: SortElements", "pkg/format/format.go: PrintDescriptor"],
  "A parser and a meaning of statements as specification; refinement of the printer to a syntax tree; the facts of the tree are a permutation of the descriptor's.")
NOTES["C113"] = "Proved for all admissible descriptors, and the names printed resolve in the scope where the language begins to look exactly if nothing further in shadows them; each condition has a computed counterexample. Findings: infinite defaults print as +Inf and do not parse; NaN prints as an unknown identifier; numbers are rounded to six digits after the point; a message named like a statement cannot be a bare field type; editions print a syntax statement naming none; enum reserved ranges lose their last number."
p("C114", "Printed words do not run together",
  "In the text printed for any file descriptor two neighbouring words, numbers or strings are separated by a blank or punctuation.",
  "every file descriptor, well-formed or not",
  "blanks are written by many pieces of code",
  ["pkg/format/protoprint/print.go: printFile, printField, printOption"],
  "Invariant on the first and last token of every part.")
NOTES["C114"] = "Full statement proved, for the modelled part (no source information)."
FULL.add("C114")
p("C115", "The first value of a printed enum is the descriptor's first value",
  "The first value of an enum, which is its default, is the first value in the text printed for it.",
  "every file descriptor",
  "depends on the sort of all the enum's elements",
  ["pkg/format/sort.go: SortElements", "pkg/format/protoprint/print.go: printEnum"],
  "Invariant of the insertion sort; computed counterexample.")
NOTES["C115"] = "False in general: values are sorted by number, so an enum whose first value is not the least gets another default (and, in proto3, a first value other than zero). Proved for the top-level enums whose first value is the least and that sort by insertion."
p("C116", "A call through a generated gRPC client arrives at that method of the server",
  "For every method of every service in a generated file that Go accepts, the client's method makes one call, of the path /service/method with the directions declared for it, and a server that registered the service answers that path by running the method of the same name with the declared request type; no other outcome is possible.",
  "every list of files, services and methods with any mix of streaming directions, with and without generic streams",
  "the client picks its stream description by a running index and the server its handler by position, over any mix of unary and streaming methods",
  ["sdk/codegen/generators/golang/grpc/upstream_gen.go: genService, genClientMethod, genServerMethod, genServiceDesc, genFullMethods", "sdk/codegen/generators/golang/grpc/generator.go: Generate"],
  "A relational meaning of the generated declarations under grpc-go's dispatch; the two indices are shown to name the same method by induction over the method list.")
NOTES["C116"] = "Full statement proved under grpc-go's contract for Invoke, NewStream and RegisterService (Grpc/Spec.v)."
p("C117", "Generated gRPC code declares no name twice",
  "The Go declarations generated for a file that the compiler accepts have distinct names.",
  "every file",
  "names are built by joining service and method names with fixed words, so collisions depend on pairs of names",
  ["sdk/codegen/generators/golang/grpc/upstream_gen.go: formatFullMethodSymbol, genService, genClientMethod, genServerMethod, generateUnimplementedServerType, unexport"],
  "Names as structured symbols with an injective spelling; computed counterexamples.")
NOTES["C117"] = "False in general; proved with generic streams when Go names are distinct, have no underscore in service names and none is another after New, Register, Unimplemented or Unsafe. Findings: services Foo and NewFoo, A{B_C} and A_B{C}, A{stream B} and A_B, methods get and Get, and without generic streams Foo{stream Bar} and FooBar, give Go code that does not compile."
p("C118", "Generated gRPC types implement the generated interfaces",
  "The client struct has every method of the client interface, the Unimplemented server every method of the server interface, stream objects those of the declared stream types, and every handler calls a method the server interface has with the arguments it takes.",
  "every list of files, services and methods, with and without generic streams, with and without required embedding",
  "signatures and bodies are written by different functions that branch on the same flags",
  ["sdk/codegen/generators/golang/grpc/upstream_gen.go: clientSignature, serverSignature, clientStreamInterface, serverStreamInterface, genClientMethod, genServerMethod, generateUnimplementedServerType"],
  "Case analysis over streaming kinds and modes for each declaration of the file.")
NOTES["C118"] = "Full statement proved for the modelled declarations."
p("C119", "The descriptor found at a declaration's name is that declaration",
  "For the name of any message, field, map, group, oneof, enum, value, extension, service or method of a linked file, the search for the descriptor at that place (hover, go to definition, references, rename) gives the descriptor of the declaration the name belongs to.",
  "every linked file of any nesting and every name in it",
  "files nest without bound, names repeat at different depths, and the search mixes lookup by name with lookup by syntax node",
  ["pkg/lsp/search.go: deepPathSearch", "pkg/lsp/cache.go: FindTypeDescriptorAtLocation"],
  "Relation between paths of syntax nodes and descriptors as specification; invariant of the climb and the descent.")
NOTES["C119"] = "Proved for all names but those the search gets wrong. Findings: messages in a group are looked up by name in the file, so another message of that name, or none, is found; groups in oneofs or extend blocks are not found; the name of a map field whose value type is a top-level message of a file without package gives that message."
p("C120", "The descriptor found at a type name is the type",
  "At the type of a field, extension, map value or method, the search gives the descriptor of that type; at the extendee of an extend block, the extended message; at a map's key type, nothing.",
  "every linked file of any nesting and every type in it",
  "as C119",
  ["pkg/lsp/search.go: deepPathSearch"],
  "As C119, extended by the last step of the descent.")
NOTES["C120"] = "Proved for message types everywhere the name of the field is found, for enums except as map values, for methods, keys and top-level extendees. Findings: an enum that is the value of a map is not found; in a file without package neither is a message; the extendee of a nested extend block is found only if written with its full name."
p("C121", "Accepting an option's name writes that name",
  "When an item offered for the name of an option is accepted, the text is as before except that the name at the cursor, if any, is replaced by the option's: plain for a field, in parentheses for an extension (in a message literal, in brackets).",
  "every line, every reference at the cursor, every column in it, every item offered",
  "columns, the length of what is typed and of what follows, and the place of the brackets vary independently",
  ["pkg/lsp/completion.go: deepCompleteOptionNames, completeOptionOrExtensionName, newExtensionFieldCompletionItem, findPartialNames", "pkg/lsp/range.go: adjustColumn"],
  "Arithmetic on columns for each kind of reference and every place of the cursor; computed counterexamples for the rest.")
NOTES["C121"] = "Proved where no name is typed, for fields replacing plain names, and for extensions replacing names in parentheses, with the cursor anywhere. Findings: an extension taken for a name typed without parentheses is inserted without them; blanks inside parentheses, an unclosed one, brackets of a message literal and fields offered for a name in parentheses give wrong text."
p("C122", "What may still be set is offered, and nothing else",
  "The options offered are the fields of the options' message that start with what is typed, are not set yet or may be repeated, and its extensions that are not set.",
  "every message, every set of options already set, every text typed",
  "the set of options on an element and the message's fields and extensions are arbitrary",
  ["pkg/lsp/completion.go: deepCompleteOptionNames, findExistingOptions, GetCompletions"],
  "Equivalence of membership in the list of items with the specification.")
NOTES["C122"] = "Proved: the exact set of fields given what is known to be set, exactly the settable ones after the keyword, and the exact set of extensions. Findings: once a letter of the name is typed, options already set are offered again; extensions already set always are; those of gogoproto are hidden; other members of a oneof that is set are offered in message literals."
p("C123", "The options offered are those of the element edited",
  "In an option statement or a list of options in brackets, the options offered are those of the innermost declaration around it.",
  "every file of any nesting and every declaration in it",
  "declarations nest without bound; the scope is found by a walk over the syntax and a search by name",
  ["pkg/lsp/completion.go: findCompletionScope, GetCompletions", "pkg/lsp/search.go: deepPathSearch"],
  "The walk stops at the declaration, whose descriptor the search finds (C119); computed counterexamples.")
NOTES["C123"] = "Proved for messages, fields, extensions, enums, services and files, wherever C119 holds. Findings: inside an rpc the options of the file are offered, in a oneof or at a map field those of the message, at an enum value those of the enum; in a group the options set on the message around it count; in empty brackets of a field, the fields of its type are offered instead of options."
p("C124", "Accepting a name from another file makes it visible and keeps the imports sound",
  "After a completed type or extension is accepted the file sees it; an import is added exactly if it did not see it before; everything visible before stays visible; the import written names the declaring file; and no import cycle arises.",
  "every workspace, file, declared name and import graph",
  "import graphs, with public imports, are unbounded",
  ["pkg/lsp/completion.go: maybeResolveImport, editAddImport"],
  "Inductive visibility and reachability over the import graph; adding an edge makes a cycle exactly if its end reached its start.")
NOTES["C124"] = "Proved, except that a name declared in a file that imports this one, directly or not, is offered, and accepting it makes an import cycle (the theorem says exactly when); the path is written without escaping."
p("C125", "Package names offered are those in use beside the file",
  "For the package statement, the name of the file's directory (if it is a valid name) and the packages of the other files in it are offered, those that start with what is typed, each once and in ascending order.",
  "every list of files, every path and every text typed",
  "any number of files and directories",
  ["pkg/lsp/completion.go: completePackageNames"],
  "Membership and sortedness of the composed list functions.")
NOTES["C125"] = "Proved for files whose path starts with their directory. Findings: at the root of the tree the directory is '.', no path starts with it, and nothing is offered; a file without a package makes the empty name an offer."
p("C126", "Adding an undeclared type declares it and disturbs nothing",
  "The fix offered for an undeclared name adds an empty message of that name behind the last declaration, puts the cursor into its body and shows it; the name is then declared, every other name keeps its meaning, and the rest of the text, comments included, stays with what it belongs to.",
  "every text, every name and every scope it is used in",
  "positions depend on the whole text, name resolution on all scopes",
  ["pkg/lsp/diagnostics.go: codeActionsForError"],
  "Positions as a fold over the text, with a lemma for offsets behind a prefix; search of a name over the enclosing scopes.")
NOTES["C126"] = "Proved, except for comments: one that stands behind the last token on its line ends up behind the new message. Offered only for unqualified names."
p("C127", "Removing an unused import removes nothing else",
  "The fix offered for an unused import deletes that statement and nothing else that is visible; unused imports, and nothing else, become warnings and are shown as unnecessary.",
  "every text and every place of the statement in it",
  "statements may share lines with anything and span lines",
  ["pkg/lsp/diagnostics.go: codeActionsForError, severityForError"],
  "Exact text after the edit for every split of the text into lines.")
NOTES["C127"] = "Proved: exactly the lines the statement touches are deleted, so the claim holds if it is alone on them. Findings: another import or the beginning of a declaration on those lines is deleted too, which may leave a file that does not parse."
p("C128", "Workspaces are told what happens to their files",
  "A notification that files were created, changed, deleted or renamed tells every workspace exactly the events of its files, in order and at once.",
  "every notification, every assignment of files to workspaces",
  "notifications are of any length and mix files of several workspaces",
  ["pkg/lsp/server.go: DidChangeWatchedFiles, changeTypeToFileAction, DidCreateFiles, DidDeleteFiles, DidRenameFiles"],
  "Induction over the notification with the groups built so far.")
NOTES["C128"] = "Proved for every notification that is not refused; changes of watched files never are. Findings: a creation, deletion or renaming is refused as a whole if one file is in no workspace, so the others are not heard of, and a file moved into or out of the workspace is not noticed."
p("C129", "File notifications do not stop the server",
  "Creating, deleting or renaming any number of files at a time leaves the server running, with the files concerned compiled again.",
  "every list of files and every state of the resolver",
  "depends on the number of files and on how indices shift while a list is edited",
  ["pkg/lsp/documents.go: DidModifyFiles", "pkg/lsp/resolver.go: UpdateURIPathMappings", "pkg/lsp/server.go: DidDeleteFiles, DidRenameFiles"],
  "Composition of the resolver's update with DidModifyFiles; exact condition for the panic of slices.Delete.")
NOTES["C129"] = "Proved for any number of creations, one deletion, one renaming. Findings: the paths of deleted files are forgotten before they are looked up (documents.go:62, 69), and unresolved events are removed by stale indices (89-91): deleting two or more files at a time always panics, so does renaming three or more; renaming two applies the wrong event."

p("C130", "Hovering over a name shows its declaration",
  "Hovering over the name of a declaration shows that declaration and nothing else: one code block whose code is a spelling of the declaration, with its comments.",
  "every declaration, with any body, comments and layout, wherever it is nested",
  "declarations are trees of any size; the code is embedded in Markdown, whose block ends at the first line of backquotes",
  ["pkg/lsp/hover.go: ComputeHover", "pkg/format/format.go: PrintNode", "pkg/lsp/search.go: findPathIntersectingToken"],
  "The formatter's theorem on declarations, transported over the trimmed line breaks; a Markdown reader of fenced blocks; no token of a declaration is a backquote.")
NOTES["C130"] = "Proved for declarations other than maps, oneofs and groups whose text has no line that ends the block; such a line can only start inside a block comment or a literal. Findings: hovering over a map field, a oneof or a group shows the message around it; a block comment with a line of three backquotes ends the code before the declaration. Not modelled: which declaration the cursor's name stands for (C119, C120)."

p("C131", "Every token is highlighted once, as what it is",
  "In every file, each keyword, name, number, string and operator is reported as highlighted exactly once and with the type and modifiers of its role; punctuation and what is not in the file is not reported.",
  "every syntax tree, with any names, values, nesting and layout, and all results of the linker",
  "trees are of any size; the walk and the rules for fields, lists and type names report tokens independently of each other",
  ["pkg/lsp/semantic.go: inspect, mktokens, inspectCompoundIdent, inspectFieldLiteral, inspectArrayLiteral"],
  "The roles of all tokens, written down per construct; a permutation between reported and expected tokens by induction over the tree.")
NOTES["C131"] = "Proved as a permutation for every tree without results of the linker, up to slashes of type URLs; with them, only values of fields and options are reported besides. Findings: the slash of a type URL is reported as type and as operator; inf and nan as a field's value and booleans in lists are reported twice; a name over two lines is one item whose length is computed from columns and may be negative; a type is marked as library if its name merely contains google.protobuf. . Not modelled: CEL expressions, incomplete nodes."
p("C132", "Every comment is highlighted once",
  "Each comment of a file is reported as a comment exactly once, wherever it stands.",
  "every syntax tree and every placement of comments",
  "comments may stand at any token; which nodes report theirs depends on the construct",
  ["pkg/lsp/semantic.go: inspect, mktokens, mkcomments"],
  "A permutation between the reported comments with those missed, and those of the tokens with those doubled, by induction over the tree.")
NOTES["C132"] = "Proved up to exact lists of what is missed and doubled, and that nothing else is reported. Findings: comments at the end of a file, at names that are values, inside names and at tokens the parser inserted are not highlighted; comments before a type that starts with a dot, and at the brackets and slashes of field names, are reported twice."

p("C133", "Renumbering the fields of a message changes nothing else",
  "After the 'renumber fields' refactoring the file consists of the same words, except that the fields of the message are numbered 1, 2, ... in their order, and it has the same comments.",
  "every message, with any members, comments, layout and position in a file",
  "the message is printed anew by the formatter and indented to its old column; messages are trees of any size",
  ["pkg/lsp/refactor.go: renumberFields, indentTextHanging", "pkg/format/format.go: PrintNode, NodeInfoOverlay"],
  "The formatter's theorem on declarations, carried over indentation of the lines and placed between the text before and after the message.")
NOTES["C133"] = "Proved for messages whose literals do not go on over the end of a line and which the formatter writes back (see C110); comments up to an exact list. Findings: a comment between the keyword 'message' and the name is lost; a comment at a field's number is lost; a comment after the closing brace is doubled, since the replaced range ends at the brace but the printed text has the comment."
p("C134", "Extracting fields moves them and changes nothing else",
  "After the 'extract fields' refactoring the chosen fields stand, in their order, in a new message after the old one; at the place of the first of them stands one field of that message's type; all other words and all comments are as before.",
  "every message, selection of fields, names chosen, and text around the message",
  "two edits are made from trees printed by the formatter; selections and messages are of any size",
  ["pkg/lsp/refactor.go: extractFields, indentTextHanging, indentText", "pkg/format/format.go: PrintNode, NodeInfoOverlay"],
  "As for C133, twice: the rest of the text of the first edit is the second edit.")
NOTES["C134"] = "Proved as C133. The names in types of moved fields are given by the resolver of names (a parameter that keeps the form of a name). Comments at the numbers of moved fields are lost, and those at their types may be (C144 says what the types mean). Which fields a selection chooses is C59. Not modelled: edits that clients apply differently from the order given."
p("C135", "Inlining a field changes nothing else",
  "After the 'inline message fields' refactoring the field is replaced, at its place, by the fields of its message type; all other words and comments are as before.",
  "every message, field and list of fields of its type",
  "messages are trees of any size; the message is printed anew",
  ["pkg/lsp/refactor.go: inlineMessageFields, indentTextHanging", "pkg/format/format.go: PrintNode, NodeInfoOverlay"],
  "As for C133.")
NOTES["C135"] = "Proved as C133. Finding: the comments of the inlined field are lost, and the new fields have none. Labels and options of the inlined fields are those the code writes (see C27)."

p("C136", "CEL expressions are highlighted where they stand",
  "Each item reported for a CEL expression in an option covers, in the file, exactly the text of the operator, identifier or literal it is reported for, with the type of that; message literals without an expression and an id are left alone, and expressions that cannot be parsed are highlighted as strings.",
  "every message literal, every split of an expression into strings, every position in a file and every result of the CEL parser",
  "columns in the expression are mapped to columns in the file per string; expressions are of any form",
  ["pkg/lsp/semantic.go: inspectCelExpr, mktokens_cel, inspect"],
  "The CEL parser is a parameter whose contract is that elements stand where it says; the lines of the expression are beginnings of the strings.")
NOTES["C136"] = "Proved for strings without escape sequences, of which none (of several) begins with a blank, and for numbers and strings written as they are printed. Findings: each escape sequence shifts what follows (and backslashes are doubled before parsing, 912); a string that begins with a blank is shifted by the blanks that are trimmed (904); numbers such as 0x20 or 1u are covered in part. Elements inserted by macros of CEL are outside of the parser's contract."
p("C137", "Highlighting does not stop the server",
  "For every message literal in a file, highlighting its CEL expression ends without a panic.",
  "every message literal and every result of the CEL parser that lies within the expression",
  "depends on the values of strings and on the form of incomplete literals",
  ["pkg/lsp/semantic.go: inspectCelExpr"],
  "Number of lines of the expression against number of strings, by induction over the fields.")
NOTES["C137"] = "Proved for literals whose fields have names and whose expressions are strings without line breaks. Findings: a string that contains an escaped line break before an operator, identifier or literal indexes the strings out of range (936 and others); an expression that is no string (expression: 5) panics at 916 since the empty text does not parse; a field without a name before the expression panics at 885, although the caller checks for it (604)."

p("C138", "Accepting an import or a syntax writes it",
  "With the cursor in the path of an import, the files offered are exactly those that are not imported yet and whose path begins with what is typed; accepting one leaves an import of that path and changes nothing else on the line. The same holds of the versions of a syntax statement.",
  "every line, every position in the path, every set of known files and of imports",
  "lines, positions and sets of files are unbounded",
  ["pkg/lsp/completion.go: GetCompletions, completeImports, completeSyntaxVersions", "pkg/lsp/resolver.go: findImportPathsByPrefix"],
  "The line as text around its quotation marks; the effect of an edit on the line against a specification of the whole new line.")
NOTES["C138"] = "Proved for paths in double quotes that are the first on their line. Findings: with another import before it on the line nothing is offered, since the first quotation mark of the line is taken for that of the path (424); in single quotes no file is offered, but the keyword public is, within the path; with no path yet and another import after it on the line, accepting a file removes what stands between."
p("C139", "Keywords are offered where they may stand",
  "The keywords offered in a message or at the top level are exactly those that may begin an element there and that begin with what is typed; accepting one replaces exactly the name under the cursor.",
  "every line, position, name under the cursor, and syntax or edition",
  "lines, positions and headers are unbounded",
  ["pkg/lsp/completion.go: messageKeywordCompletions, fileKeywordCompletions, completeKeywords, isProto2, findPartialNames"],
  "A separate table of what may begin an element, by header; membership both ways.")
NOTES["C139"] = "Proved both ways at the top level of files with a syntax; in messages of proto3 that what is offered may stand there, and for all that it is offered but for four words. Findings: oneof, map and extensions are never offered; group is offered as the beginning of an element; files with an edition are taken for proto2, so required and group are offered in messages and a syntax at the top."
p("C140", "Values are offered and replace the value",
  "With the cursor at the value of a field, the values offered are exactly those of its type that begin with what is typed, and accepting one leaves it in place of the value; where there is no value, it is inserted at the cursor, and braces are for a message.",
  "every type of field, every line, value and position",
  "lines, values and positions are unbounded",
  ["pkg/lsp/completion.go: completeFieldLiteralValues, completeEnumValues, findPartialNames"],
  "As for C139.")
NOTES["C140"] = "Proved for a cursor within or at the end of the value. Findings: with the cursor after the value the part that is replaced is shifted, so that the beginning of the value stays (tr becomes trtrue); within a list nothing is offered."
p("C141", "Fields offered in a message literal are those that may still be set",
  "In a message literal a field is offered if and only if it is repeated or not set yet, and accepting it adds to the words of the file that field's name, a colon and the brackets of its value, and nothing else.",
  "every message type, every set of fields present, every text before and after the cursor",
  "types, literals and texts are unbounded",
  ["pkg/lsp/completion.go: GetCompletions, fieldCompletion"],
  "Words of the text by the lexer of C110; names found by the first match.")
NOTES["C141"] = "Proved for literals that are values of messages. Finding: in the literal of an extension the fields are written like options, name = value, which does not parse, and fields that are set are offered again (176-186)."

p("C142", "Each part of an option's name is completed from the part before it",
  "With the cursor right before a dot of an option's name, or after the last one, the fields offered are exactly those of the message that this part of the name is a field of - the options of the element, or the type of the part before - whose names begin with what is typed, and accepting one leaves it in place of the part.",
  "every name of any number of parts, every part, every message and every text around the name",
  "names, messages and texts are unbounded",
  ["pkg/lsp/completion.go: GetCompletions, deepCompleteOptionNames"],
  "Indices among references and dots, by induction over the name; what is offered for a message is C122.")
NOTES["C142"] = "Proved for parts that do not follow an extension, for the extension that begins a name, and after the last dot. Findings: after an extension in parentheses the parentheses of that extension are taken for those of the part at the cursor (part is nodeChildren[i-3], 318 and 347), so that the fields of a message with extension ranges are not offered and extensions are written over the text to the left; after a dot that is not the last (a. |b) the fields of the type of the next part are offered."
p("C143", "The type that is completed is replaced",
  "Accepting a type while the type of a field or an extendee is typed leaves it in place of what stands there and changes nothing else, and completion does not panic.",
  "every line, name and position of the cursor in the name",
  "lines, names and positions are unbounded",
  ["pkg/lsp/completion.go: GetCompletions, completeTypeNamesFromList"],
  "The name as written against the name as an identifier; effect of the edit on the line.")
NOTES["C143"] = "Proved for names written without blanks. Findings: completing the extendee of 'extend foo . bar' after its name panics with slice bounds out of range (473), since offsets in the text index the name without blanks; for a field's type written so, the end of the name stays behind."

p("C144", "Extracted fields keep their types",
  "After the 'extract fields' refactoring the type of each moved field, read at its new place by protobuf's scoping rules, means what it meant before, and its label is the same.",
  "every set of declared names, package, nesting of the message, field and type",
  "which declaration a name means depends on all scopes around it, of any depth",
  ["pkg/lsp/refactor.go: extractFields, findNewUnusedMessageName", "pkg/lsp/completion.go: relativeFullName"],
  "The scope that decides is the innermost that declares the first part; exact condition by induction on the scopes between.")
NOTES["C144"] = "Exact condition proved for types that are messages (no scope in between declares the first part of the shortened name, and it is not the name of a scalar); unconditional but for scalars for messages that are not nested and types of their package; types of other kinds keep their meaning unless the old message declares the name. Findings: enums declared in the old message are not found from the new one, nor are messages with delimited encoding (refactor.go:551 looks at MessageKind only); the dot in front of full names is dropped, so that a nearer declaration is found; a nested new message may have the name of a type that is used in it, which is then recursive."
p("C145", "Inlined fields keep their types and labels",
  "After the 'inline message fields' refactoring each new field has the type, read at its place by protobuf's scoping rules, and the label of the field it was made from.",
  "every set of declared names, package, nesting of the message, field and type",
  "which declaration a name means depends on all scopes around it, of any depth",
  ["pkg/lsp/refactor.go: inlineMessageFields", "pkg/lsp/completion.go: relativeFullName"],
  "As for C144.")
NOTES["C145"] = "Proved for scalars that are neither repeated nor required; exact condition for messages and enums. Findings: repeated and required fields lose their label (730-733); map fields become single fields of the type of their entries, which cannot be referred to; groups become fields of a type called group (746); a type declared in the enclosing message hides the type meant."

p("C146", "Formatting a formatted file changes nothing",
  "Formatting the text that formatting a file gave, read again, gives the same text.",
  "every file",
  "files are unbounded, and whether fields are aligned and where empty lines go depends on the lines of the source, which formatting changes",
  ["pkg/format/formatter.go: writeFile, writeStartMaybeCompact, writeLineEnd, writeBodyEnd, writeCompactOptions", "pkg/format/column_format.go: columnFormatElements", "pkg/lsp/format.go: FormatDocument"],
  "Two runs of the writers are compared, from a source and from what was written; line ends in the first output are the white space of the second source. A simulation carries the number of line ends since the last word; alignment in columns is treated as a choice of blanks.")
NOTES["C146"] = "False: four refutations. A field broken over lines is joined by the first formatting and only aligned by the second; the same for the type of a map; a field that began on the last line of the options of the one before it is aligned with it only the first time; several empty lines at the start become one and then none. Proved, for files in the formatter's order without comments and without message or list literals: the second formatting leaves every word on its line; the third changes nothing; and one formatting that moves no word to another line is final. Missing: comments (which can double for ever, C112_doubled_refuted), message and list literals."

p("C147", "Accepting a type writes a name that means it",
  "The text inserted when an offered type is accepted, read at the cursor by protobuf's scoping rules, means the type that was offered.",
  "every set of files, package, enclosing scope and text typed",
  "which declaration a name means depends on all scopes around it, of any depth",
  ["pkg/lsp/completion.go: completeTypeNames, completeExtendeeTypeNames, completeTypeNamesFromList"],
  "The text inserted in each of the four cases, and the scope that decides what it means; exact condition by induction on the enclosing scopes.")
NOTES["C147"] = "Unconditional when what was typed begins with a dot. Otherwise proved with the exact condition: no scope between the place of use and the package (for types of the same package), or none at all (for full names), declares something with the first name of what is written. Findings: in a message that declares T, the type T of the package is offered as T, which means the nested one; and a full name whose first package is also declared in an enclosing scope is not found."
p("C148", "The types offered are those that what is typed can mean",
  "While the type of a field or an extendee is typed, exactly the messages, other than map entries, and enums are offered whose name can be reached by continuing what was typed.",
  "every set of files, package and text typed",
  "files and names are unbounded",
  ["pkg/lsp/completion.go: completeTypeNames, completeExtendeeTypeNames, completeTypeNamesFromList, allowedProto3Extendees", "pkg/lsp/cache.go: FindAllDescriptorsByPrefix, FindAllDescriptorsByQualifiedPrefix"],
  "Exact characterisation of the offers by the search that is made; completeness for own and full names; witnesses for names that are missing.")
NOTES["C148"] = "The set offered is characterised exactly; types of the file's package by their names in it and all types of packages by their full names are offered. Findings: a nested type is not offered by its short name inside the message that declares it; after 'M.' nothing is offered for types nested in M; a name with a leading dot is not continued behind the package ('.a.' offers nothing); types of files without a package are never offered. In proto3 all nine kinds of options are offered as extendees whatever was typed."

p("C149", "A refactoring changes the text it was computed for",
  "When an offered refactoring is accepted, its edits are applied to the text they were computed from or not at all, and at most once; resolved in time with the text untouched, they are applied.",
  "every history of edits, compilations, offers, expiries, resolutions and answers",
  "the order of typing, compiling, choosing and answering is arbitrary",
  ["pkg/lsp/refactor.go: pendingCodeActionManager.enqueue, pendingCodeActionManager.resolve", "pkg/lsp/server.go: ResolveCodeAction, clientSupportsResolveEdits"],
  "Transition system of client and server; invariant: an older version or the same text.")
NOTES["C149"] = "Proved for clients that resolve edits, in every history in which no document is opened a second time. Findings: clients without the resolve capability for edits get changes without a version (server.go:869), which go into a text they were not computed for; after a document is closed and opened again the versions start anew and an old edit is accepted; refactorings are offered also to clients that do not resolve actions, where they do nothing."

p("C150", "Every command is answered",
  "Whatever a client sends with workspace/executeCommand, the server replies with a result or an error and goes on serving.",
  "every command name, list of arguments, set of workspaces and sequence of commands",
  "arguments are arbitrary JSON values",
  ["pkg/lsp/commands.go: ExecuteCommand", "pkg/lsprpc/handler.go: unknownHandler.Execute, ServeStream"],
  "Model of the decoding of arguments (struct and map), exact characterisation of the messages that panic.")
NOTES["C150"] = "False; the messages that end the process are characterised exactly. Findings (commands.go:84-210): a command that takes an argument without one; 'protols/generate' with an empty list; any command, also one that does not exist, whose 'uri' is no string, whose 'uris' does not begin with a string or whose 'workspace' lacks a string for its URI or its name. The panic is in a goroutine without recover (handler.go:81), so that the server ends."
p("C151", "Commands work in the workspace they name",
  "A command does something only in a workspace of the server, the one its argument names; code is generated for exactly the files that are listed.",
  "every command, argument, set of workspaces and order of them",
  "arguments are arbitrary JSON values and workspaces any number",
  ["pkg/lsp/commands.go: ExecuteCommand", "pkg/lsprpc/handler.go: unknownHandler.Execute", "pkg/lsp/server.go: CacheForURI, CacheForWorkspace"],
  "Inversion of the dispatch; members are looked up in a map for the workspace and in a struct for the files.")
NOTES["C151"] = "Proved: what is not registered does nothing; the workspace is that of 'uri', else of the first of 'uris', else 'workspace' (by URI, whatever the name); the files are those listed if no other member is read as the list. Findings: the workspace is looked up by the exact member name but files are read from a member of any case, and a 'uri' takes precedence, so that files and workspace need not go together; the first file decides for all."

p("C152", "Highlighting a part of a document agrees with highlighting all of it",
  "Semantic tokens requested for a range are tokens reported for the whole document in the same order, and every one of those with text in the range is among them.",
  "every document, syntax tree and range",
  "trees and ranges are unbounded",
  ["pkg/lsp/semantic.go: ComputeSemanticTokensRange, semanticTokensRange, computeSemanticTokens"],
  "Induction on the tree: what is left out with a node has no text in the range.")
NOTES["C152"] = "Proved for ranges that begin and end on a token; the first half for every range. Finding (under the contract that TokenAtOffset gives TokenError = -1 for an offset that is on no token): a range that ends between tokens, for example at the end of a line, gives no tokens at all. What begins exactly at the end of the range is included."
p("C153", "Hints for a part of a document are those of its references",
  "Hints requested for a range are those, for each reference in brackets to a field of one message, that name the type of the message in front of the closing bracket, of the references with text in the range; each once.",
  "every document, list of references and range",
  "documents and ranges are unbounded",
  ["pkg/lsp/inlayhints.go: computeMessageLiteralHints"],
  "Offsets are compared through the tokens they are on, which are in order.")
NOTES["C153"] = "Proved for ranges that begin and end on a token. Finding, as for C152: a range that ends between tokens, such as one that ends at the end of a line of the screen, gives no hints."

p("C154", "Editing a document does not stop the server",
  "Whatever a client does with a document that the protocol allows (open, change, save, close), and whatever happens to the file on disk and to the workspace folders, no notification ends the server.",
  "every history of editing, of the file on disk, of notifications about it and of folder changes",
  "the order of edits, file events and folder changes is arbitrary",
  ["pkg/lsp/documents.go: DidModifyFiles, ChangedText", "pkg/lsp/server.go: DidOpen, DidChange, DidSave, DidClose, DidChangeWatchedFiles, DidChangeWorkspaceFolders", "pkg/lsp/resolver.go: UpdateURIPathMappings"],
  "Transition system of editor, disk and workspaces on top of the model of DidModifyFiles; invariant: a document that is open has an overlay in its workspace; exact condition for the panic.")
NOTES["C154"] = "Proved for documents that are opened in a workspace that knows the file and stay in it while they are open, with the exact condition for a crash. Findings (under the contract that UpdateOverlays gives an error for an edit of a document without an overlay, upon which documents.go:93 panics): opening a file whose path is not known yet is dropped without an overlay (documents.go:69-77), so that once a watcher reports the file as created the next edit, save or close ends the server; and the same for a document that is open while its folder is added to the workspace."
p("C155", "The server works on the text of the document",
  "While a document is open, the server's text of it and the text its results were compiled from are what is in the editor; after it is closed, they are what is on disk.",
  "every history of editing, of the file on disk, of notifications about it and of folder changes",
  "the order of edits, file events and folder changes is arbitrary",
  ["pkg/lsp/documents.go: DidModifyFiles, ChangedText, GetMapper", "pkg/lsp/server.go: DidOpen, DidChange, DidSave, DidClose, DidChangeWatchedFiles", "pkg/lsp/resolver.go: UpdateURIPathMappings"],
  "As for C154, with an invariant on the texts.")
NOTES["C155"] = "Proved for open documents whose file is not deleted meanwhile (and whose Go module stays), with changes that are applied as the protocol says (C06); for closed ones that were saved or whose change the server is told of. Findings: closing without saving compiles nothing (documents.go:79), so that results and diagnostics stay those of the text that was thrown away while positions are read in the file; what is typed between the deletion and the creation of the file on disk is dropped, and the texts differ ever after; closing a document whose file was deleted is dropped too, so that its overlay stays and a new file of that name is taken to have the old text."
p("C156", "Go to definition leads to the declaration",
  "At a name, a field's type or a method's message, \"go to definition\" gives the file and range of the name of the declaration it stands for, in the current text of the declaring file; \"find references\" lists that place first when the declaration is asked for.",
  "every history of compilations, every document, position and schedule of compilations between the steps of the request",
  "which files are compiled again between the steps of a request is up to the scheduler",
  ["pkg/lsp/server.go: Definition", "pkg/lsp/cache.go: FindTypeDescriptorAtLocation, FindDefinitionForTypeDescriptor", "pkg/lsp/search.go: findDefinition", "pkg/lsp/references.go: FindReferences"],
  "Composition of the models of the result cache and of the search for descriptors, with one history for each time the lock is taken; result objects carry the identity that nodes are looked up by.")
NOTES["C156"] = "Proved when the declaring file is not compiled between the steps of the request, for the places C119 and C120 cover. Findings: the lock is given back between finding the descriptor and finding its node (server.go:297-306), and nodes are looked up by the identity of the old result's descriptors, so any compilation of the declaring file in between, even of the same text, makes the request fail; a document with a syntax error that had linked before makes every request for it panic (see C08)."
p("C157", "A reported range selects what it is about",
  "The range reported for a node of a document (definitions, references, symbols, links, edits, diagnostics) selects, with the protocol's lines and UTF-16 columns, exactly the bytes of the node.",
  "every text and every node in it, whatever columns the parser counts",
  "all texts, with all characters at all places",
  ["pkg/lsp/range.go: toRange, toPosition, positionsToRange, pointToRange, adjustColumns", "pkg/lsp/inlayhints.go", "pkg/lsp/diagnostics.go: toProtocolDiagnostics"],
  "Composition of the reported positions with the protocol's reading of positions (Documents); exact condition on the text before the node.")
NOTES["C157"] = "Exact condition proved, under the contract that the parser's columns count bytes: the range is right iff there are only ASCII characters before its ends on their lines (and for any other way of counting, iff it counts UTF-16 units). Findings: after any other character on the line every range is shifted to the right; a report without a position has line and column 4294967295."
p("C158", "Completion reads what is typed",
  "The part of a name before the cursor and the part after it, which completion filters by and replaces, are the bytes of the name before and after the cursor.",
  "every text, every name in it and every cursor in the name",
  "all texts, with all characters at all places",
  ["pkg/lsp/completion.go: findPartialNames, GetCompletions (field types)", "pkg/lsp/range.go: toRange, toPosition"],
  "As C157, with the mapper's conversion back to offsets.")
NOTES["C158"] = "Proved when only ASCII characters come before the name on its line. Findings: byte columns are read back as UTF-16 columns (completion.go:1522, 376, 470), so after another character on the line the wrong text is taken for what is typed or the request fails, and at the start of a field's type the slice index is negative (382), a panic."
p("C159", "The check reports every problem and fails exactly for errors",
  "For every diagnostic the check (the vet command, the compiler driver of the SDK) prints a message with severity, file, line number and text, and for errors and warnings with the line of the file; it fails exactly if there is an error.",
  "every set of documents, texts and diagnostics",
  "all texts and all ranges of diagnostics in them",
  ["sdk/driver/driver.go: Compile", "pkg/lsp/externalapi.go: XGetAllDiagnostics", "pkg/protols/commands/vet.go"],
  "Function model of the loop over diagnostics on top of the mapper's offsets (Documents); the messages are read as a terminal shows them.")
NOTES["C159"] = "Proved for diagnostics within one line that a line feed ends; the exit status for all. Finding: of a diagnostic that spans several lines nothing is printed (driver.go:115), so that the check can fail without a message."
p("C160", "The check completes whatever the problems",
  "Turning diagnostics into messages neither crashes nor gives up, whatever the texts and the places of the problems.",
  "every text and every diagnostic",
  "all texts and all ranges of diagnostics in them",
  ["sdk/driver/driver.go: Compile", "pkg/protols/commands/vet.go"],
  "As C159, with exact conditions for the crash and for the failure.")
NOTES["C160"] = "Exact conditions proved for both. Findings: an error or warning in the empty line after the last line feed (as for a missing closing brace at the end of the file) or in an empty file makes the slice driver.go:166 go out of range, a panic; a diagnostic without a position (line 4294967295, C157) makes Compile fail with an error, and no message of any document is printed."
p("C161", "The check shows the place of a problem",
  "The line shown with an error or warning is the line of the file, with exactly the text of the problem in the colour of its severity.",
  "every text and every node in it",
  "all texts and all places in them",
  ["sdk/driver/driver.go: Compile, severityToColor", "pkg/lsp/range.go: positionsToRange"],
  "Composition of the reported range of a node (C157) with the columns of the message.")
NOTES["C161"] = "Proved for every text within a line that a line feed ends: byte columns are read as such here, so that other characters do no harm (unlike C157). Finding: of a last line without a line feed the last character is cut off (endPos-1), and a problem that reaches it is not marked, but the whole line."
p("C162", "Printed declarations keep their comments",
  "Printing a declaration from its descriptor (the Go API that also makes the sources of synthesized files) writes all its detached, leading and trailing comments, each line of them, around the declaration, so that a reader attaches them to the same declaration; it never crashes.",
  "every comment and every declaration, alone or in a row of fields or options",
  "all comments with all line structures and all contexts",
  ["pkg/format/protoprint/print.go: printElement, printBlockElement, printLeadingComments, printTrailingComments, newLine", "pkg/format/format.go: NewDefaultPrinter"],
  "Function model of the printing of an element with its comments on top of the writer and the comments (C81, C82); the text is read as blanks and comments by an inductive definition.")
NOTES["C162"] = "Proved that the declaration is outside of the comments, that every comment is there with all its lines and in its place, the empty line after detached comments and that one-line trailing comments stay on the line; exact condition for the crash (a comment of two line ends within a line). Missing and refuted: with the server's printer a trailing comment of several lines of one field is printed as the leading comment of the next field, and so is every trailing comment of an option in brackets, since the comma is written before it (print.go:1702-1708)."
p("C163", "Printed elements are in a well-defined order",
  "Sources printed from descriptors have the package first, then imports by path, then options, the built-in ones first; fields, extensions and enum values are in the order of their numbers, and everything else is in the order of the source.",
  "every file, message, enum and service, with and without source information",
  "all sets of elements with all combinations of kinds, numbers and locations",
  ["pkg/format/sort.go: SortElements", "pkg/format/protoprint/print.go: elementSrcOrder.Less, customSortOrder.Less, sort"],
  "Function model of the comparison; proof that it is a strict weak order through a key, under the contract that sorting by such an order gives a list in that order.")
NOTES["C163"] = "Proved for compiled declarations but for the order of the source. Findings: locations are compared by their paths in the descriptor instead of their positions (print.go:2451-2464, .Path for .Span), so that messages come before enums, enums before services etc., whatever the order in the source; without source information the comparison is no strict weak order (fields are ordered, a nested message is equivalent to each of them), and if only some fields have locations it has cycles, so that the result depends on the sorting algorithm."
p("C164", "Extensions are printed in their extend statements",
  "Printing a file or message prints every extension in a block for the extend statement that it was declared in, with the comments of that statement.",
  "every file and message with source information",
  "all numbers of extend statements at all depths",
  ["pkg/format/protoprint/print.go: findExtSi, isSpanWithin, computeExtensions"],
  "Function model of how extensions are attributed to statements, with the locations that the compiler gives.")
NOTES["C164"] = "Proved that blocks do not mix extended messages, and what blocks there are. Findings: paths are taken for spans here too, so that printing a compiled file with a top-level extend statement panics with an index out of range (print.go:695); in a top-level message all blocks get the comments of the first extend statement, and statements for the same message are merged; in nested messages all comments of extend statements are lost."
p("C165", "An option is printed with the comments of the statement that sets it",
  "Printing a declaration from its descriptor gives each option, of any element and however deep the statement's name leads into a message, the comments of the statement that sets it; other elements are not affected by how options are looked up.",
  "every list of source locations and every option of files, messages, fields, oneofs, extension ranges, enums, enum values, services and methods",
  "all sets of locations at all depths and in all orders, of which the first match is taken",
  ["pkg/format/protoprint/print.go: extendOptionLocations, edges, printOptionsLong, printOptionElementsShort", "pkg/format/protoprint/internal/source_info.go: Get, PutIfAbsent, PopulateSourceInfoMap"],
  "Function model of the map and of the paths added to it; the paths of options are specified from descriptor.proto by an inductive definition.")
NOTES["C165"] = "Proved which location is used for every option and every value of it. Finding: when several statements set fields of the same message option, the option is printed once, with the comments of the first statement; the comments of the others are lost."
p("C166", "Offered fields are shown with their type and file",
  "Beside each field that completion offers, its type is shown as it is written in the language, so that fields of different types can be told apart; beside what comes from another package or needs an import, the file is shown, and an import is added exactly if the name is not visible yet.",
  "every field of every type and cardinality, and every visible or invisible name",
  "all kinds of types combined with all names, labels and files",
  ["pkg/lsp/completion.go: fieldTypeDetail, fieldCompletion, newExtensionFieldCompletionItem, maybeResolveImport"],
  "Function model of the texts; the text of a type is specified by recursion over the type.")
NOTES["C166"] = "Proved for scalar and message types and for files. Findings: a map is shown as repeated map<p.M.XEntry.key, p.M.XEntry.value>, with the names of the entry's fields for their types (completion.go:822); every enum is shown as enum and every extension of a message type as message, without the type's name."
p("C167", "Requests are refused exactly while the file has a syntax error",
  "Formatting and hints are refused exactly while the file has a syntax error, be it one that the parser recovers from but that cannot be formatted; completion from the current tree, renaming and highlighting exactly while it has one that the parser does not recover from. Problems reported before the last compilation of the file, and problems of other files, do not matter.",
  "every history of reports, clearings and withdrawals for all files",
  "all interleavings of compilations of all files before the request",
  ["pkg/lsp/documents.go: LatestDocumentContentsWellFormed", "pkg/lsp/diagnostics.go: GetDiagnosticsForPath, HandleError, HandleWarning, ClearDiagnosticsForPath"],
  "On the model of the diagnostics (C10-C13): what a file holds after a history, by induction over the history.")
NOTES["C167"] = "Proved for all histories, as long as no such problem is withdrawn because another file that was cleared named its place (C12). That a request is between compilations is C22/C109; which errors are syntax errors is a parameter (errors.As)."
p("C168", "Completion at a dot in an option's name offers what the names before lead to",
  "After a dot at the end of an option's name, the offered fields are those of the message that the name leads to, and accepting one writes it after the dot. At the end of a name before a dot, the offered fields are those of the message that the names before it lead to which start as it does, and accepting one replaces the name.",
  "all names of options with any number of parts, all messages and extensions, all cursor positions at a dot",
  "Names can have any number of parts, extensions or not, and the type of each decides what is offered.",
  ["pkg/lsp/completion.go: GetCompletions (case *ast.OptionNameNode), deepCompleteOptionNames"],
  "Model the search for the part at the cursor over lists of parts; describe written names by a separate tree; prove what is offered and what accepting writes.")
NOTES["C168"] = "Partial. Proved in full for a dot at the end and for the first name. For later names it holds if the name is no extension and the one before it is no extension or leads to a message without extension ranges. Findings: the reference that is passed on is the one before the name that is completed, so after an extension no field is offered (C168_inner_refuted), and in the place of an extension after a field an accepted offer leaves an unpaired parenthesis (C168_inner_accept_refuted). Whether the tree of the parser is the one in Spec.v is trusted."
p("C169", "Types are completed for what is typed before the cursor",
  "In the type of a field and in the name of an extended message, completion looks for types by the part of the name before the cursor and replaces the rest. It does not fail wherever the cursor is in the name. Where a type is missing, types are offered with nothing typed.",
  "all names as written, with blanks and comments between their parts, and all cursor positions",
  "The offsets of the text and of the name differ by everything written between the parts, which can be anything.",
  ["pkg/lsp/completion.go: GetCompletions (cases *ast.FieldNode and *ast.ExtendNode)"],
  "Model the two cases with Go's slicing; describe written names as parts with gaps; prove for names without gaps, and when the slices are out of range.")
NOTES["C169"] = "Partial. Proved for names without blanks or comments inside. Findings: the offset in the source is used in the name without blanks (AsIdentifier), so with blanks in it more is taken as typed than is (C169_typed_refuted), and in the name of an extended message the request panics near its end, as the bound is not checked there (completion.go:479; C169_extend_refuted, C169_extend_fails_iff). That AsIdentifier leaves blanks out is trusted (the library is not in the repository)."
p("C170", "Printed options and maps come in the same order every time",
  "Printing a descriptor lists its options in the same order each time, though they are kept in a map without an order: first the options of the language, then extensions, each by name. So do the keys of a map value, by number, text or false before true, and the fields of a message literal, by number.",
  "all sets of options, keys and fields, all orders of iteration over them, all ways of sorting that keep Go's contract",
  "Go picks the order of iteration at random, so any run can pass by chance; the order must be the same for every permutation.",
  ["pkg/format/protoprint/print.go: optionsAsElementAddrs, optionsByName, optionLess, sortKeys", "pkg/format/protoprint/message_literal.go: printMessageLiteralToBuffer"],
  "Model Go's insertion sort for short lists and take any sort under its contract for longer ones; prove that the comparisons are strict weak orders and that the sorted list is unique.")
NOTES["C170"] = "Partial. Proved for keys and fields, and for options of different names. Finding: an option of the language that is set and is also the first of the options not yet interpreted shares its name with them, and which is printed first is left to chance (C170_options_refuted). Names of options are not empty; the sort of more than twelve elements is any that keeps Go's contract."
p("C171", "Options are read with the extensions that the file sees",
  "Before a descriptor is printed, the types declared in its file, in the files it imports, and in what these import publicly are registered, at any depth of nesting and no others; of types with the same name, or extensions with the same number of the same message, one is. Options kept as unknown bytes are read exactly if their extension is among these, and then printed.",
  "all files with any tree of messages, all graphs of imports, all options with unknown fields",
  "Imports and messages nest without bound; what is registered must be exactly what is visible.",
  ["pkg/format/protoprint/internal/registry.go: registerTypesForFile, registerTypes", "pkg/format/protoprint/print.go: PrintProto, reparseUnknown"],
  "Model the registration over trees of files and messages, the registry by its contract; define by separate relations what a file sees; prove both directions.")
NOTES["C171"] = "Partial. Proved for the registration and for reading unknown fields (values that are not malformed). Finding: the options are read in the message that protodesc.ToFileDescriptorProto makes, which is then dropped, and printed from the descriptor, so an option kept as unknown bytes is not printed though its extension is seen (print.go:355; C171_printed_refuted). That ToFileDescriptorProto copies options is the library's contract. Files do not import themselves."
p("C172", "The path of an element leads to it",
  "Where a single element is printed, its comments are looked up at the path that leads to it in the descriptor of its file; no two elements have the same path.",
  "all elements at any depth of nesting",
  "Elements nest without bound, and the numbers on the path depend on what each lies in.",
  ["pkg/format/protoprint/print.go: findElement"],
  "Model the function over chains of parents; define what paths mean by descriptor.proto; prove that each path leads to its element and back.")
NOTES["C172"] = "Proved for all elements that can exist."
p("C173", "Requests do not race on the tables of paths",
  "Whatever requests run at the same time and however they take turns, the tables that map documents to import paths are not written while another request reads or writes them, at which the Go runtime would end the server.",
  "all sets of concurrent requests of any number, all their schedules",
  "Races show only under some schedules, and not even then in every run.",
  ["pkg/lsp/resolver.go: UpdateURIPathMappings, FindFileByPath, CheckIncompleteDescriptors, PathToURI, URIToPath", "pkg/lsp/externalapi.go: XGetURIPathMappings, XListWorkspaceLocalURIs", "pkg/lsprpc/handler.go: Execute, doGenerate", "pkg/lsp/documents.go: DidModifyFiles"],
  "Model requests as programs of lock calls and uses of the tables, and their interleavings; prove that programs whose uses are covered by the lock never race, by an invariant; check each request.")
NOTES["C173"] = "Partial. Proved for all requests but those that generate code. Finding: generating code reads the tables under the lock of the results (externalapi.go:63-83), while an edit writes them under the lock of the tables only (documents.go:62), so both can happen at once; commands run beside other requests (handler.go:61-64), so the client can bring this about by editing after the command is sent. Waiting writers keeping out readers is left out of the model, which only adds runs; in the runs of the refutation no lock is waited for."
p("C174", "Results are not replaced while they are read",
  "Whatever requests and compilations of a workspace run at the same time and however they take turns, the results of its files are not replaced while a request goes through them.",
  "all sets of concurrent requests and compilations of any number, all their schedules",
  "Races show only under some schedules, and not even then in every run.",
  ["pkg/lsp/compiler.go: Compile, postInvalidateHook", "pkg/lsp/cache.go: resultsMu and the lookups under it", "pkg/lsp/completion.go: completePackageNames"],
  "As C173, for the other lock.")
NOTES["C174"] = "Partial. Proved for all requests but completion in the name of a package, which goes through the results without the lock (completion.go:621). The server runs requests other than commands one at a time (C20), so this concerns users of the Cache API. The hooks of the compiler are taken to run one at a time, as the library has it. That the results have no other uses outside the lock was checked by reading."
p("C175", "Every value of an option is printed, under its own name",
  "Where a descriptor is printed, an option that repeats is printed once for each of its values, in their order. An option that was not yet interpreted is printed with the name it was written with, different names giving different text, and with the value it is set to; printing fails only if it is set to nothing.",
  "all values of options, single, repeated and maps; all options not yet interpreted, with names of any number of parts",
  "Names have any number of parts, of which some are in parentheses and contain dots themselves; that no two collide cannot be sampled.",
  ["pkg/format/protoprint/print.go: valueToOptions, valueForOption, uninterpretedToOptions, printOption"],
  "Model the functions; define proper parts and settings separately; prove the names injective by induction and the values by cases.")
NOTES["C175"] = "Partial. Finding: values of enums whose number has no name are left out (print.go:1997-2000; C175_values_refuted), so a descriptor with such values is printed without them. An option that is set to nothing makes the printer panic (print.go:1791; C175_fails_iff). Numbers are taken by their printed text; for what is lost in printing floating-point numbers see C113."
p("C176", "Values gathered into one array are separated by commas",
  "When options are simplified, the array that the values end in is printed with exactly one comma between any two of them, whatever the values were given as: single values, arrays, empty arrays, with or without a comma at the end.",
  "all arrays that are there already, all lists of values and arrays gathered into them",
  "Where commas are missing depends on how many values of which form are gathered; the printer looks them up by index and fails if there are too few.",
  ["pkg/lsp/refactor.go: calcSimplifyRepeatedOptionsEdits", "pkg/format/formatter.go: writeArrayLiteral"],
  "Model the elements of arrays with their commas, the gathering and the printing; define arrays by the grammar; prove by counting commas.")
NOTES["C176"] = "Partial. Proved for new arrays, for arrays that are empty and for arrays with a comma after their last value. Finding: no comma is added after the last value of an array that is there, so if it has none the values added leave too few commas and the printer's index is out of range (formatter.go:1436, 1456; C176_extended_refuted). Whether the parser ever leaves such an array is up to the library, which is not at hand: its lexer adds delimiters of its own, and test/codeactions_test.go expects this very case to work. Split is taken to return the values and the commas among the elements."
p("C177", "Comments carried over into generated services stay comments",
  "Whatever the comments of a file, a service or a method contain, each of their lines is a line of comment in the Go code generated for its services; those of a service are not cut off from its interface by an empty line, those of a method stand right before it, and all of them say the same but for white space at the end.",
  "all texts of comments, with any line ends and white space, detached or leading, and methods deprecated or not",
  "A comment may be of any number of lines, end in empty ones, or be nothing but white space, and code that got out of a comment would be compiled.",
  ["sdk/codegen/generators/golang/grpc/upstream_gen.go: genServiceComments, genLeadingComments, genService"],
  "Model printing and trimming of comments; define texts by their lines; prove that trimming leaves lines of comments.")
FULL.add("C177")
NOTES["C177"] = "The lines are proved to be comments. Finding: the text follows the slashes as it is, so that a comment such as //go:build ignore before the syntax of a file is an instruction to the Go command in the code generated (C177_directive_refuted). Comments.String and P are taken by their documentation; trimming is of ASCII white space. What gofmt does to the text afterwards is not modelled."

# Formal model of kralicky/protols in Rocq

## Layout

* `properties.jsonl` – the properties, one per line.
* `rocq/theories/Base.v` – shared list/byte-string library (no modelling content).
* `rocq/theories/<Area>/Model.v` – the model of one area of the code. Every definition cites file and lines in /repo and names each simplification.
* `rocq/theories/<Area>/Spec.v` – what the property means, stated without the model's helpers.
* `rocq/theories/<Area>/Proofs.v` – lemmas.
* `rocq/theories/<Area>/Props.v` – the property theorems (named `Cnn_...`), each with a concrete example that meets its hypotheses and `Print Assumptions`.
* `seeded/LOG.jsonl` – mutation log: model edits and which theorems notice.
* `MANIFEST.json` – property to theorem map. It, `properties.jsonl` and the section below are generated by `tools/gen.py` from `tools/props.py`.

A theorem whose name ends in `_partial` proves the property under an extra restriction stated in its comment; a theorem ending in `_refuted` gives a concrete counterexample to the full property on the model, i.e. a finding about the code.

## Trusted base

* Coq 8.16.1's kernel (and coqchk for the re-check).
* Axioms: none. `Print Assumptions` stands after the theorems in every Props.v and reports "Closed under the global context" for every property theorem. No standard-library axiom is used. Only the Coq standard library is imported. coqchk's summary for the whole library lists the axioms of `Coq.ssr.ssrunder` (the `Under_rel` module type of the library itself), which comes with the standard library; no theorem here depends on them.
* The correspondence between the Gallina definitions and the Go source, by reading; each definition cites lines. The Go code was not executed. The unit tests of the formatter were replayed on the model (FormatTree/Cases.v): model and expected texts agree.
* Third-party code (protocompile, gopls' protocol/diff/cache packages, the Go runtime and standard library, the operating system) is not modelled. Where the modelled code calls it, it appears either as an arbitrary parameter the theorem quantifies over, or by its documented contract, and the comment at the definition says which. The contracts used:
  * Go: `sync.RWMutex` (Locks), channels and `context` cancellation (Versions, Publish, Rpc), slices sharing an array (Links, Workspaces), maps in any iteration order (an arbitrary permutation), `sort.Stable` permutes and orders (PrintTree), by insertion up to 20 elements (PrintTree, C115), `path/filepath` Clean/Join/Rel (Paths), `encoding/base64` (Decode), `strconv` quoting (Format, Print), ASCII white space for `unicode.IsSpace` (simplification).
  * Files: `os.Rename`, `os.CreateTemp` and a write that stops at any byte (Overwrite, Generate).
  * gopls: `Mapper` positions (Documents follows PositionOffset over UTF-8 texts and UTF-16 columns; Completion distinguishes bytes and UTF-16 columns; elsewhere columns are numbers), `diff.Edit` application, `protocol.Intersect`; `OverlayFS` reads a document from its overlay and else from disk, and refuses changes of documents without an overlay (Sync).
  * protocompile: a token's comments and white space and the incomplete-node marks (FormatTree); the compile hooks (Compile); which descriptor belongs to which declaration (Locate, Outline); resolution of relative names (PrintTree); `TokenAtOffset` is -1 between tokens and `WithRange` skips nodes outside (Window); what a file sees of its imports, and the files under a path prefix (Offers); the AST walker visits children in order (Search).
  * protoreflect and protogen: `GoCamelCase`, `proto.Equal` is sound (PrintTree), `RangeFilesByPackage` visits the files of a package (Packages).
  * grpc-go: `Invoke`, `NewStream`, `RegisterService` and dispatch by full method name (Grpc/Spec.v).

## Mutation testing

`tools/mutate.py` copies the development to a scratch directory, applies one edit to a model file, rebuilds, and lists the theorems that no longer prove. Every attempt is a line of `seeded/LOG.jsonl`; the edits are in `seeded/mutants.jsonl`. A surviving mutant was either used to tighten a theorem (`theorems_tightened`) or is recorded with a note saying why it breaks no stated claim. Mutants that repair a defect of the program must make the `_refuted` theorem fail.

## Coverage of the code

One line per area that models a function. "(locks)" means that only the function's lock operations are modelled (area Locks). Functions in no list are outside the model, and so are `test/` and the build scripts.

<!-- BEGIN COVERAGE -->

* `cmd/protols/main.go`
  * not modelled: main
* `pkg/format/alg.go`
  * Format, FormatTree: splitSegmentedFields
* `pkg/format/ast.go`
  * not modelled: DumpAST, maybe, maybeValue, Visit
* `pkg/format/column_format.go`
  * FormatTree: columnFormatElements, groupableNodeType
  * Format (columns): columnFormatElements
* `pkg/format/format.go`
  * Remarks: NewDefaultPrinter
  * Hover (declarations): PrintNode
  * Rewrite: NodeInfoOverlay, NodeInfo
  * Links (control flow): Format, File, FileInPlace
  * Decode: FileInPlace
  * not modelled: PrintDescriptor, PrintAndFormatFileDescriptor
* `pkg/format/formatter.go`
  * Commas: writeArrayLiteral
  * FormatTree: all but those below
  * Format (comments, import order): isCommentPrefix, unindent, computeIndent, importSortOrder, writeComment
  * not modelled: StringForOptionName, StringForFieldReference, GetElements
* `pkg/format/protoprint/internal/registry.go`
  * Element: RegisterExtensionsForFile, RegisterTypesForFile, registerTypesForFile, registerTypes
* `pkg/format/protoprint/internal/source_info.go`
  * Settings: CreateSourceInfoMap, PopulateSourceInfoMap, Get, Add, PutIfAbsent
  * Print: Get, GetAll, Add, PutIfAbsent, asMapKey
  * not modelled: recomputeSourceInfo, RecomputeSourceInfo
* `pkg/format/protoprint/internal/util.go`
  * PrintTree: JsonName
  * Print: GetMaxTag
  * not modelled: InitCap, CreatePrefixList
* `pkg/format/protoprint/message_literal.go`
  * PrintTree (tokens, not the choice of line breaks): printMessageLiteralToBuffer, maybePrintAnyMessageToBuffer, printValueLiteralToBuffer, printArrayLiteralToBuffer, printMapLiteralToBuffer, printMessageLiteralToBufferMaybeCompact, printArrayLiteralToBufferMaybeCompact, printMapLiteralToBufferMaybeCompact, printMessageLiteralCompact, printMessageLiteral, printArrayLiteralCompact, printMapLiteralCompact
  * not modelled: maybeNewline, Len, Get, Set, Append, AppendMutable, Truncate, NewElement, IsValid
* `pkg/format/protoprint/print.go`
  * Raw: valueToOptions, valueForOption, toUninterpretedOption, uninterpretedToOptions, printOption
  * Element: reparseUnknown, findElement, PrintProto
  * Steady: optionsAsElementAddrs, optionLess, sortKeys
  * Settings: extendOptionLocations, printOptionsLong, printOptionElementsShort
  * Arrange: findExtSi, isSpanWithin, sort, Less
  * Remarks: newLine, printBlockElement, printElement, includeCommentType, printLeadingComments, printTrailingComments, printOptions, printOptionElementsShort
  * PrintTree (without source information): printFile, computeExtensions, qualifyMessageOptionName, qualifyExtensionLiteralName, qualifyName, typeString, printMessage, printMessageBody, printField, shouldEmitLabel, labelString, isGroup, printOneOf, printExtensions, printExtensionRanges, printReservedRanges, printReservedNames, printEnum, printEnumValue, printService, printMethod, printOptions, printOptionsLong, extractAndPrintOptionsShort, printOptionsShort, printOptionElementsShort, sortKeys, printOption, extractOptions, valueToOptions, uninterpretedToOptions, optionsAsElementAddrs, at
  * Print: qualifyElementName, quotedBytes, quotedString, printComment, inline, indent, maybeIndent, newWriter, Write, printExtensionRanges, printReservedRanges
  * not modelled: collect, PrintProtoFiles, PrintProtosToFileSystem, PrintProtoFile, PrintProtoToString, getMessageIndex, getFieldIndex, getOneOfIndex, getEnumIndex, getEnumValueIndex, getServiceIndex, getMethodIndex, Len, Swap, printfElementString, printElementString
* `pkg/format/protoprint/sort.go`
  * not modelled: asElement, Kind, Name, Number, NumberRange, Extendee, IsCustomOption
* `pkg/format/sort.go`
  * PrintTree, Arrange: SortElements
* `pkg/lsp/cache.go`
  * Definition: FindTypeDescriptorAtLocation, FindDefinitionForTypeDescriptor
  * Compile: NewCache, findResultByPathLocked, findResultOrPartialResultByPathLocked, findParseResultByPathLocked, FindPragmasByPath
  * PrefixSearch: findAllDescriptorsByPrefixLocked, findAllDescriptorsByQualifiedPrefixLocked
  * Workspaces: TracksURI
  * Locate: FindTypeDescriptorAtLocation
  * (locks): FindDescriptorByName, FindExtensionByName, FindExtensionByNumber, FindExtensionsByMessage, FindResultByPath, FindResultByURI, FindResultOrPartialResultByPath, FindResultOrPartialResultByURI, FindParseResultByPath, FindParseResultByURI, FindFileByURI, FindMessageByName, FindMessageByURL, FindDefinitionForTypeDescriptor, FindAllDescriptorsByPrefix, FindAllDescriptorsByQualifiedPrefix, RangeAllDescriptors, rangeAllDescriptorsLocked, FindImportPathsByPrefix
  * not modelled: apply, LoadFiles, DidChangeConfiguration, All, Range, Len
* `pkg/lsp/codeactions.go`
  * CodeActions: all
* `pkg/lsp/codelens.go`
  * Outline: ComputeCodeLens
* `pkg/lsp/commands.go`
  * Commands, Workspaces (reindexing), Locks: ExecuteCommand
  * not modelled: NewSelectRangeCommand
* `pkg/lsp/compiler.go`
  * Compile: all
* `pkg/lsp/completion.go`
  * Splits: GetCompletions
  * Dots: GetCompletions, deepCompleteOptionNames
  * Details: fieldTypeDetail, fieldCompletion, maybeResolveImport
  * Ranges (as to columns): findPartialNames, GetCompletions
  * Types: completeTypeNames, completeExtendeeTypeNames, completeTypeNamesFromList
  * Typing: GetCompletions, completeKeywords, completeFieldLiteralValues, fieldCompletion, isProto2, messageKeywordCompletions, fileKeywordCompletions, completeImports, completeSyntaxVersions, completeEnumValues
  * Offers: completeOptionOrExtensionName, editAddImport, completePackageNames, findCompletionScope, findExistingOptions, deepCompleteOptionNames, findPartialNames, maybeResolveImport
  * Completion: GetCompletions, completeTypeNamesFromList, completeImports, completeSyntaxVersions, completeEnumValues, newExtensionFieldCompletionItem, distanceSort, affineEntrySort, nameDistance, relativeFullName
  * not modelled: init, newMapFieldCompletionItem, newMessageFieldCompletionItem, newDefaultPseudoOptionCompletionItem, newJsonNamePseudoOptionCompletionItem, newBuiltinScalarOptionCompletionItem, newNonMessageFieldCompletionItem, newNonMessageRepeatedOptionCompletionItem, syntaxSnippets
* `pkg/lsp/diagnostics.go`
  * Fixes: codeActionsForError, tagsForError, severityForError, metadataForError
  * Diagnostics: toProtocolDiagnostics, StreamWorkspaceDiagnostics, Add, Get, getLocked, Clear, DeleteRelated, Flush, resetResultId, getOrCreateDiagnosticListLocked, HandleError, HandleWarning, GetDiagnosticsForPath, ClearDiagnosticsForPath, Stream
  * Publish (as a concurrent system): StreamWorkspaceDiagnostics, Stream, Flush
  * not modelled: NewDiagnosticHandler, werrorCategoryForError, relatedInformationForError, FullDiagnosticSnapshot
* `pkg/lsp/documents.go`
  * Gate: LatestDocumentContentsWellFormed, latestDocumentContentsWellFormedLocked
  * Documents: ChangedText, contentChangeEventsToDiffEdits, DidModifyFiles
  * Sync: ChangedText, DidModifyFiles, GetMapper
  * Versions: WaitDocumentVersion
  * (locks): LatestDocumentContentsWellFormed
  * not modelled: GetSyntheticFileContents
* `pkg/lsp/externalapi.go`
  * Decode: XGetAllMessages
  * Races (locks): XGetURIPathMappings, XListWorkspaceLocalURIs
  * Sdk: XGetLinkerResults
  * Vet: XGetAllDiagnostics
  * not modelled: XGetResolver, XGetMapper
* `pkg/lsp/format.go`
  * Links, Decode: FormatDocument
* `pkg/lsp/generated.go`
  * Generated: FindGeneratedDefinition, GoIdent, tryResolvePathToGeneratedImport
  * not modelled: nodeLocation, lookupObjDecl
* `pkg/lsp/golang.go`
  * Resolver: HasGoModule, ImportFromGoModule, ImplicitGoPackagePath
  * Generated: FindGeneratedFiles, SynthesizeFromGoSource, ParseGeneratedPreamble
  * not modelled: NewGoLanguageDriver, RefreshModules, Position, DecodeRawFileDescriptor
* `pkg/lsp/hover.go`
  * Hover (the code shown): ComputeHover
  * Packages (package names): ComputeHover
  * (locks): ComputeHover
  * not modelled: makeTooltip
* `pkg/lsp/inlayhints.go`
  * Links: computeImportHints
  * Window: computeMessageLiteralHints
  * (locks): ComputeInlayHints
  * not modelled: buildMessageLiteralHints
* `pkg/lsp/links.go`
  * Links: ComputeDocumentLinks
* `pkg/lsp/log.go`
  * not modelled: SetLevel, Level, ParseLogLevel
* `pkg/lsp/packages.go`
  * Packages: all
* `pkg/lsp/pragmas.go`
  * Compile: Lookup, update
  * not modelled: init
* `pkg/lsp/range.go`
  * Ranges: toRange, toPosition, positionsToRange, pointToRange, adjustColumns
  * Completion: adjustColumn
* `pkg/lsp/refactor.go`
  * Commas: calcSimplifyRepeatedOptionsEdits
  * Apply: enqueue, resolve, resolveCodeAction
  * CodeActions: enqueue, resolve, resolveCodeAction, FindRefactorActions, RefactorUndeclaredName
  * Refactor: extractFields, inlineMessageFields, renumberFields, findNewUnusedMessageName, findNewUnusedFieldName
  * Simplify: simplifyRepeatedOptions, collectRepeatedOptionRefs, calcSimplifyRepeatedOptionsEdits
  * Rewrite: extractFields, inlineMessageFields, renumberFields, indentTextHanging, indentText
  * Retype: extractFields, inlineMessageFields
  * not modelled: newFieldVisitor, calcInsertIndex, formatNodeInsertEdit, formatNodeRemovalEdits, buildSimplifyOptionsASTChanges, unwrapIndex
* `pkg/lsp/references.go`
  * Definition (the declaration listed): FindReferences
  * Search: FindReferenceLocationsForTypeDescriptor, FindReferencesForTypeDescriptor
  * Packages: FindReferences
* `pkg/lsp/rename.go`
  * Rename: all
* `pkg/lsp/resolver.go`
  * Resolver: NewResolver, PathToURI, URIToPath, UpdateURIPathMappings, CheckIncompleteDescriptors, FindFileByPath, findFileByPathLocked, checkWellKnownImportPath, checkFS, checkGoModule, checkGlobalCache, LookupGoModule, FastLookupGoModule, translatePathLocked, FindSuffixMatchedPath
  * Workspaces: IsRealWorkspaceLocalFile
  * Typing: findImportPathsByPrefix
  * not modelled: OpenFileFromDisk, SyntheticFileContents, SyntheticFiles, PreloadWellKnownPaths, FindGeneratedFiles, tryReverseLookupLocked
* `pkg/lsp/search.go`
  * Definition: findDefinition
  * Locate: deepPathSearch, isResolved, nextResolved, push
  * Search: findNarrowestSemanticToken, findPathIntersectingToken, visitEnclosingRange, DefaultEnclosingRangeVisitor, findPathsEnclosingRange, findNodeReferences
* `pkg/lsp/semantic.go`
  * Cel: inspectCelExpr, mktokens_cel, inspect
  * Tokens: computeSemanticTokens, mkcomments, multilineComment, inspectStringLiteralWithEscapeSequences, Data
  * Highlight: inspect, mktokens, mkcomments, inspectCompoundIdent, inspectFieldLiteral, inspectArrayLiteral
  * Locate (paths of tokens, as a contract): inspect
  * Window: ComputeSemanticTokensRange, semanticTokensRange
  * (locks): ComputeSemanticTokens, semanticTokensFull
  * not modelled: AST, init, getAst
* `pkg/lsp/server.go`
  * Definition: Definition
  * Apply: ResolveCodeAction, clientSupportsResolveEdits
  * Workspaces: cacheInitLocked, cacheDestroyLocked, Initialize, CacheForURI, CacheForWorkspace, shutdown, DidChangeWorkspaceFolders, Symbol, DidChangeConfiguration
  * Documents, Sync: DidOpen, DidClose, DidChange, DidChangeWatchedFiles, DidSave
  * Events: DidChangeWatchedFiles, changeTypeToFileAction, DidCreateFiles, DidDeleteFiles, DidRenameFiles
  * (locks): Definition
  * not modelled: apply, WithUnknownCommandHandler, NewServer, Completion, Initialized, Hover, SemanticTokensFull, SemanticTokensFullDelta, SemanticTokensRange, SemanticTokensRefresh, DocumentSymbol, Diagnostic, DiagnosticWorkspace, DocumentColor, DocumentHighlight, DocumentLink, Formatting, InlayHint, References, Shutdown, Exit, CodeAction, changesToDocumentChanges, PrepareRename, Rename, CodeLens, notImplemented, Declaration, SignatureHelp, Subtypes, Supertypes, TypeDefinition, WillCreateFiles, WillDeleteFiles, WillRenameFiles, WillSave, WillSaveWaitUntil, WorkDoneProgressCancel, CodeLensRefresh, CodeLensResolve, ColorPresentation, CompletionResolve, Resolve, ResolveCodeLens, ResolveCompletionItem, …
* `pkg/lsp/settings.go`
  * not modelled: GetExtensionTypes, GetImports
* `pkg/lsp/symbols.go`
  * Outline: documentSymbolsForFileLocked, symbolKind, messageSymbols, enumSymbols, extendSymbols, serviceSymbols
  * Symbols: QueryWorkspaceSymbols, toSymbolInformation
  * (locks): DocumentSymbolsForFile
* `pkg/lsp/tokentype_string.go`
  * not modelled: String
* `pkg/lsp/versions.go`
  * Versions: all
* `pkg/lsp/wellknown.go`
  * Resolver: IsWellKnownPath
* `pkg/lsprpc/handler.go`
  * Rpc: AsyncHandler
  * Generate: doGenerate
  * Commands: Execute
  * Commands (registration): ServeStream
  * not modelled: NewStreamServer
* `pkg/protols/commands/decode.go`
  * Decode: all but those below
  * not modelled: decodeWithNoType, decodeWithDescriptor
* `pkg/protols/commands/fmt.go`
  * Decode: BuildFmtCmd
* `pkg/protols/commands/serve.go`
  * not modelled: BuildServeCmd
* `pkg/protols/commands/vet.go`
  * Vet: BuildVetCmd
* `pkg/protols/root.go`
  * not modelled: BuildRootCmd, Execute
* `pkg/sources/search.go`
  * Codegen: SearchDirs
* `pkg/util/gofmt_helpers.go`
  * Overwrite: all
* `pkg/version/version.go`
  * not modelled: FriendlyVersion
* `pkg/x/protogen/genid/genid.go`
* `pkg/x/protogen/strs/strs.go`
  * Generated: all
* `pkg/x/symbols/symbols.go`
  * Symbols: all
* `sdk/codegen/generator.go`
  * Codegen: Read, GenerateCode, DefaultGenerators, WriteToDisk
  * not modelled: apply, WithGenerateStrategy, WithFixInvalidGoPackages, GenerateWorkspace
* `sdk/codegen/generators/external/generator.go`
  * Codegen: Generate, NewGenerator, Name
* `sdk/codegen/generators/golang/generator.go`
  * not modelled: Name, Generate
* `sdk/codegen/generators/golang/grpc/generator.go`
  * Grpc, Codegen: Generate
  * not modelled: Name
* `sdk/codegen/generators/golang/grpc/grpc.pb.go`
  * not modelled: Reset, String, ProtoMessage, ProtoReflect, Descriptor, GetRequireUnimplemented, GetUseGenericStreams, file_github_com_kralicky_protols_sdk_codegen_generators_golang_grpc_grpc_proto_rawDescGZIP, init, file_github_com_kralicky_protols_sdk_codegen_generators_golang_grpc_grpc_proto_init
* `sdk/codegen/generators/golang/grpc/upstream_gen.go`
  * Grpc: all but those below
  * GoDoc: genServiceComments, genLeadingComments
  * not modelled: protocVersion
* `sdk/driver/driver.go`
  * Sdk: Compile, sortAndFilterResults
  * Vet: Compile
  * not modelled: apply, WithRenameStrategy, NewDriver
* `sdk/plugin/protogen.go`
  * Sdk: New
* `sdk/util/transform.go`
  * Sdk: all

<!-- END COVERAGE -->

## Properties: what is modelled and how each is proved

<!-- BEGIN GENERATED -->

### C01 A successful wait for a document version is truthful

WaitDocumentVersion(uri, v) returns success only if, at some point no later than its return, the version most recently published for that same uri was >= v or was -1 (closed/on-disk marker). A wait that was cancelled reports the cancellation and never success.

*Model and proof.* Transition system over (versions, queue, channel states, waiter states); inductive invariant over op lists.

*Status: proved.* Theorems: `C01_wait_success_is_truthful`, `C01_wait_error_is_cancellation`. Full statement proved for every history and interleaving.

### C02 No lost wake-up

Once a version v' >= v (or -1) of a document has been published, no wait for version v of that document is blocked: every wait already pending is released by that very update and every later wait returns immediately until a lower version is published. Updates of other documents release nobody.

*Model and proof.* Invariant: a blocked waiter's channel is open, is registered under its (uri, version), and the published version is absent or lower.

*Status: proved.* Theorems: `C02_wait_released_iff_published`, `C02_pending_wait_released_by_update`, `C02_later_wait_immediate`, `C02_no_foreign_release`, `C02_get_is_latest`. Full statement proved: released iff a satisfying version was published since the call.

### C03 A wake-up is signalled at most once

No sequence of operations makes the server signal (close) the same wake-up twice, which would panic the server.

*Model and proof.* Invariant: registered channels are open and pairwise distinct; the model has an explicit panic state and it is unreachable.

*Status: proved.* Theorems: `C03_no_double_close`. Full statement proved (the panic flag of the model is never set).

### C04 The published version of an open document never goes backwards

Between opening and closing a document, whose versions the client only ever increases, the version the server publishes never decreases (otherwise requests that wait for a version already processed time out).

*Model and proof.* Model the handlers as translating client events to Update calls; monotonicity without saves, refutation with a save.

*Status: partial.* Theorems: `C04_published_version_monotone_refuted`, `C04_published_version_monotone_partial`, `C04_change_publishes_its_version`, `C04_close_releases_waits_refuted`. Finding: a save notification publishes version 0 (server.go:513-520 leaves Version at its zero value), and a close publishes nothing (documents.go:79,95). Monotonicity is proved for documents without save/on-disk events.

### C05 A batch of file events drops exactly the events it cannot resolve

When a batch of file events is processed, exactly the events whose document cannot be resolved are discarded; all the others are applied, once, in order.

*Model and proof.* Compare the index-based deletion loop with filter; proved for at most one unresolvable event, refuted in general.

*Status: partial.* Theorems: `C05_batch_filtered_iff_at_most_one_unresolvable`, `C05_batch_published_partial`, `C05_batch_compiled`, `C05_batch_two_unresolvable_refuted`. Finding: documents.go:89-91 deletes by stale index. Proved exact characterisation: the batch is filtered correctly iff it has at most one unresolvable event; otherwise the server panics or applies an unresolvable event.

### C06 Incremental text synchronisation follows the protocol

After a didChange notification the server's text of the document is the previous text with the notification's changes applied one after the other, each one to the result of the previous one.

*Model and proof.* Text as byte list, changes as offset ranges; compare with left-to-right application; proved for single changes and for batches ordered from the end of the document; refuted in general.

*Status: partial.* Theorems: `C06_changes_applied_in_sequence_refuted`, `C06_legal_changes_accepted_refuted`, `C06_full_text_among_changes_refuted`, `C06_single_change`, `C06_descending_changes_partial`, `C06_positions`. Positions are modelled on UTF-8 texts with UTF-16 columns, as gopls' Mapper does, and characterised by C06_positions. Finding: documents.go:29-37 applies all changes against the original text. Proved for single changes and for batches ordered from the end; refuted in general (wrong text, rejected legal input, nil-dereference panic).

### C07 Compilation results stay consistent

After any number of compilations and invalidations there is at most one result per file path; a path is never recorded both as partially linked and as unlinked; and a path recorded as partially linked or unlinked has no stale fully linked result visible to lookups.

*Model and proof.* State machine with the external compiler's outcome as input; inductive invariant.

*Status: proved.* Theorems: `C07_results_consistent`. Full statement proved for every history of compilations and invalidations, whatever the compiler reports.

### C08 Lookups return the outcome of the latest compilation

For every path, the parse-result lookup returns the result reported for that path by the latest compilation that reported one since its last invalidation; and the linked-result lookups return it exactly when it was linked (or partially linked, for the lookup that allows it).

*Model and proof.* Refinement to an abstract map path -> latest outcome.

*Status: partial.* Theorems: `C08_lookups_current_partial`, `C08_latest_exists`, `C08_lookup_never_panics_refuted`, `C08_failed_compilation_keeps_results_refuted`. Findings: once a file that had linked becomes partially linked or unlinked, looking it up panics on the placeholder left in the result list (cache.go:207); a compilation that fails as a whole after starting on a partially linked file loses that file's result. Proved: all three lookups are exact for well-behaved histories.

### C09 Deleting a file removes its result and only its result

Invalidating a file that will not be recompiled removes its result from all later lookups of linked results and changes no other file's results.

*Model and proof.* Lemma over the state machine of C07.

*Status: partial.* Theorems: `C09_delete_removes_only_its_result`, `C09_deleted_file_gone_from_all_lookups_refuted`. Proved for linked results and as a frame property. Finding: postInvalidateHook leaves the partial and unlinked results of a deleted file in place, so lookups that accept those keep returning them.

### C10 Published diagnostics are the current diagnostics

While a diagnostics stream is attached, after every flush the client's view (last report received per file) equals the server's current diagnostics for every file that ever had a report; nothing is published for a file that was neither reported on nor cleared since its last flush.

*Model and proof.* Refinement: invariant 'clean list => client view equal'.

*Status: partial.* Theorems: `C10_published_is_current`, `C10_flush_publishes_everything`, `C10_nothing_published_after_detach`, `C10_nothing_published_without_change`, `C10_current_since_clear`, `C10_deleted_file_cleared_at_client_refuted`. Proved for every interleaving while the stream is attached and the file keeps its URI. Finding (C10_deleted_file_cleared_at_client_refuted): when a file is deleted its path-to-URI mapping is removed (documents.go:62) before its diagnostics are cleared and flushed, and the callback drops reports without URI (diagnostics.go:114-117), so the client shows the deleted file's errors forever.

### C11 Diagnostics that exist when the client subscribes are delivered

After a client attaches its diagnostics stream and a flush happens, it has received the current diagnostics of every file that has some.

*Model and proof.* Refuted: a flush without a listener consumes the dirty flag.

*Status: partial.* Theorems: `C11_existing_diagnostics_delivered_refuted`, `C11_diagnostics_since_attach_partial`. Finding: a flush without a listener consumes the dirty flag (diagnostics.go:228-236, 598-606), and server.go compiles and flushes all files before it attaches the stream, so errors present at start-up are not shown until the file changes. Proved for files reported on or cleared after attaching.

### C12 Clearing a file's diagnostics has a bounded effect

Clearing a file leaves it with no diagnostics; on any other file it removes only diagnostics whose range is the related range of one of the cleared diagnostics; and files not named by related information are untouched.

*Model and proof.* Direct proof over the handler state.

*Status: proved.* Theorems: `C12_cleared_file_empty`, `C12_other_files_lose_only_related`, `C12_unrelated_files_untouched`, `C12_related_removed`, `C12_all_related_removed_refuted`. Full statement proved, plus completeness when ranges are distinct. Auxiliary finding (C12_all_related_removed_refuted): with several diagnostics at a related range only the first is removed.

### C13 'Unchanged' answers are truthful

If a query with a previous result id is answered 'unchanged' then the diagnostics are the same as when that id was handed out (given distinct clock readings).

*Model and proof.* History invariant: result id determines list content, assuming a strictly increasing clock; refuted for a stalled clock.

*Status: proved.* Theorems: `C13_unchanged_is_truthful`, `C13_untouched_is_unchanged`, `C13_coarse_clock_refuted`. Full statement proved, plus the converse for untouched files. Auxiliary finding (C13_coarse_clock_refuted): result ids are clock readings, so two changes within one tick are indistinguishable.

### C14 Warning elevation follows the file's pragma

A warning in a Werror category is reported as an error unless the file's debug pragma contains a field Wnoerror=<that category> or Wnoerror=all; other diagnostics keep their severity; and reporting the same diagnostic twice gives the same severity as long as the pragma does not change.

*Model and proof.* Characterise the scan over Fields/Cut; refute idempotence when the pragma is added later (severity is stored back).

*Status: proved.* Theorems: `C14_elevated_iff`, `C14_repeatable`, `C14_follows_current_pragma_refuted`. Elevation rule and repeatability proved (pragma text as ASCII). Auxiliary finding (C14_follows_current_pragma_refuted): the elevated severity is written back into the stored diagnostic, so a diagnostic reported once as an error stays one.

### C15 The semantic token stream decodes to the tokens

Decoding the delta-encoded token array per the protocol yields exactly the tokens computed for the document: same positions, lengths, types and modifier bits, in document order.

*Model and proof.* Round trip decode (encode l) = l.

*Status: proved.* Theorems: `C15_tokens_decode`. Full statement proved for every token list and every outcome of the (unstable) sort.

### C16 Overwriting a file is crash safe

If the process dies at any point while a formatted or generated file is being written, the original contents can be recovered: either the file itself still holds the complete original contents or a complete backup of it exists next to it, or the file holds the complete new contents.

*Model and proof.* Small-step program over a file-system state with nondeterministic failures; invariant at every step.

*Status: proved.* Theorems: `C16_overwrite_crash_safe`. Full statement proved for every crash point and every pattern of I/O failures.

### C17 The result of overwriting a file is truthful

If overwriting reports success the file holds exactly the new contents, and a backup is left only if deleting it failed; if it reports an error the file holds exactly the original contents or a complete backup is left.

*Model and proof.* Postcondition of the same program.

*Status: proved.* Theorems: `C17_overwrite_success`, `C17_overwrite_error`, `C17_no_stray_file_on_error_refuted`. Full statement proved. Auxiliary finding (C17_no_stray_file_on_error_refuted): if writing the backup fails, the incomplete backup file stays behind (gofmt_helpers.go backupFile does not remove it).

### C18 Workspace symbol results are the best matches, ranked

The symbol results are ordered by score, then name length, then name; there are at most 100; and no stored symbol with a strictly higher score is left out in favour of a lower one.

*Model and proof.* Sortedness invariant, binary-search correctness, top-K characterisation by scores.

*Status: proved.* Theorems: `C18_results_ranked_best_100`, `C18_ties_at_cutoff_by_rank_refuted`. Full statement proved. Auxiliary finding (C18_ties_at_cutoff_by_rank_refuted): among candidates of equal score the cut-off at 100 keeps the ones stored first, not the best-ranked ones (TooLow compares scores only).

### C19 A multi-word symbol query is a conjunction

A query of several fields matches a symbol exactly if every field matches it; ^, ' and $ fields match by prefix, substring and suffix; a field with no upper-case letters matches regardless of case. The empty query matches nothing.

*Model and proof.* Model with the fuzzy matcher as an oracle; iff characterisation.

*Status: proved.* Theorems: `C19_query_is_conjunction`, `C19_words_exist_unique`. Full statement proved, for every fuzzy matcher with non-negative scores, over byte strings (ASCII case folding).

### C20 Requests are handled in arrival order

A request's handler starts only after every earlier non-streaming request has been replied to; streaming requests start in the same order but do not hold up later ones.

*Model and proof.* Transition system with chained channels; invariant over all schedules.

*Status: partial.* Theorems: `C20_fifo_refuted`, `C20_order_characterised_partial`, `C20_fifo_without_streaming_partial`, `C20_next_waits_for_reply`. Finding: handler.go:74-75 closes a streaming request's channel on arrival, so requests after it overtake earlier requests that are still running. Proved: the exact condition under which request i waits for request j (no streaming request in between), hence FIFO without streaming requests.

### C21 Every request is eventually handled

If every handler replies exactly once, no schedule leaves a request that can never start.

*Model and proof.* Progress theorem: while some request is unfinished some step is enabled; plus a decreasing measure.

*Status: proved.* Theorems: `C21_no_request_stuck`, `C21_bounded_work`, `C21_no_double_close`. Full statement proved: some step is enabled while a request is unanswered, at most two steps per request, and no channel is closed twice.

### C22 Read-only requests cannot deadlock with an edit

No schedule of concurrent read-only requests (code lens, document symbols, inlay hints, hover, definitions, ...) and edits leaves the server permanently blocked on the results lock.

*Model and proof.* Go RWMutex transition system; progress for non-nested lock programs, refutation for the nested ones.

*Status: partial.* Theorems: `C22_flat_requests_never_deadlock_partial`, `C22_exclusive`, `C22_flat_requests`, `C22_nested_requests_deadlock_refuted`, `C22_generated_definition_deadlock_refuted`, `C22_reads`, `C22_only_reads`. Deadlock freedom and a step bound proved for all requests whose lock use is not nested (hover, definition, references, formatting, completion, code actions, edits), in any number, under any schedule. Finding: code lens, document symbols, workspace symbols, inlay hints, document links, semantic tokens, rename and go-to-generated-definition take the read lock again while holding it, which deadlocks with one concurrent edit under Go's RWMutex. In the deployed server requests other than commands are run one at a time (C20), so the reachable instance is go-to-generated-definition (a command) against didChange; the others concern users of the Cache API.

### C23 Commands release the locks they take

Every execution path of a workspace command releases the server's cache lock before it returns.

*Model and proof.* Lock-trace semantics per command; refuted for refreshModules.

*Status: partial.* Theorems: `C23_refresh_succeeds_iff`, `C23_refresh_releases_iff_partial`, `C23_commands_release_lock_refuted`, `C23_other_commands_release_lock`. Finding: protols/refreshModules returns without unlocking cachesMu if a workspace has no Go language driver (commands.go:166-175); every later request then blocks. Exact condition proved, and that the other commands release the lock.

### C24 Only requested code action kinds are returned

With an empty 'only' list every supported kind is wanted; otherwise a kind is wanted exactly if it is listed or is a sub-kind (separated by a dot) of a listed kind; returned actions have wanted kinds only.

*Model and proof.* iff characterisation.

*Status: proved.* Theorems: `C24_wanted_kinds`, `C24_returned_kinds_wanted`. Full statement proved (kinds as dot-separated paths), for arbitrary diagnostics, import suggestions and analyzer outputs. Remark: the error 'no supported code action' is unreachable because every requested kind is entered into the map (codeactions.go:180).

### C25 Organize-imports keeps every edit

The merged organize-imports action contains every edit of the actions it replaces, for every document; actions of other kinds are returned unchanged and in order.

*Model and proof.* Proved for deletions and distinct texts; refuted for equal texts in different documents.

*Status: partial.* Theorems: `C25_others_kept_and_removals_kept`, `C25_each_text_once_partial`, `C25_every_edit_kept_refuted`. Proved: other actions kept, all removals kept, nothing invented; for one document every text to be inserted is inserted exactly once. Finding: with several documents equal texts are inserted in only one (the set of seen texts is not per document, codeactions.go:119-130).

### C26 A deferred code action is resolved at most once

Each deferred code action's computation runs at most once and never after its deadline has removed it; resolving an unknown, expired or already resolved action fails with an error and computes nothing.

*Model and proof.* Transition system with timers; invariant counting executions.

*Status: partial.* Theorems: `C26_computed_at_most_once`, `C26_resolve_iff_available`, `C26_malformed`, `C26_never_after_removal_partial`, `C26_no_leak_partial`, `C26_no_leak_refuted`. Proved for every interleaving: at most one computation; a resolve computes iff the action is available. Finding: the timer is armed before the action is stored (refactor.go:61-70), so if the deadline passes in between the entry is never removed.

### C27 Inlining a message keeps field numbers and names unique

If the field numbers and names of the enclosing message are distinct then they still are after the 'inline message fields' refactoring.

*Model and proof.* Model on declaration lists; proved when all numbered members are plain fields; refuted with map fields and with a name clash.

*Status: partial.* Theorems: `C27_inline_numbers_distinct_iff_partial`, `C27_inline_numbers_distinct_partial`, `C27_inline_names_distinct_partial`, `C27_inline_number_clash_refuted`, `C27_inline_name_clash_refuted`, `C27_inline_empty_panics_refuted`, `C27_inline_keeps_cardinality_refuted`. Exact condition for distinct numbers proved; names proved distinct when no inlined name is taken. Findings: the largest number is computed over plain fields only (refactor.go:709-720), so numbers of map fields, groups and oneof fields can be reused; the replacement name for one inlined field is not checked against the other inlined fields; a message without fields makes the action panic (765); the label of repeated fields is lost.

### C28 Renumbering keeps field numbers unique

After the 'renumber fields' refactoring the field numbers of the message are distinct.

*Model and proof.* Proved for messages of plain fields; refuted with a map field or oneof.

*Status: partial.* Theorems: `C28_renumber_distinct_iff_partial`, `C28_renumber_plain_partial`, `C28_renumber_distinct_refuted`. Exact condition proved. Finding: only plain fields are renumbered (refactor.go:846-871), so a map field or oneof field numbered at most the number of plain fields collides.

### C29 Generated names are unused

A name chosen for a new message or field is not already used in its scope.

*Model and proof.* Proved with fewer than 100 clashes; refuted at exhaustion.

*Status: partial.* Theorems: `C29_name_unused_partial`, `C29_first_unused`, `C29_search_exhausted_refuted`, `C29_message_name_in_scope_refuted`. Proved for fewer than 100 names in use. Findings: the 100th candidate is returned unchecked; new message names are compared only with messages, so an enum, service or extension of that name clashes.

### C30 Names inserted by completion resolve to the completed type

The name inserted for a type, prefixed by some enclosing scope of the place of use, is the full name of that type.

*Model and proof.* Proved when the package names share prefixes only at component boundaries; refuted otherwise.

*Status: partial.* Theorems: `C30_relative_name_partial`, `C30_relative_name_refuted`, `C30_name_captured_refuted`, `C30_type_label`. Proved, with minimality, whenever neither package name is a textual prefix of the other except as an enclosing package; type labels proved. Findings: for packages such as foo and foobar the comparison stops in the middle of a part (completion.go:1481-1483) and the inserted name denotes another type; an inner scope that declares the first part captures the name.

### C31 Completion ranking is a consistent order

The ranking of candidates by distance is a strict weak order: irreflexive, transitive, with transitive incomparability, so sorting is well defined; nearer scopes never rank below farther ones.

*Model and proof.* Lexicographic-order argument; metric laws of nameDistance.

*Status: partial.* Theorems: `C31_ranking_strict_order`, `C31_distance_meaning_partial`, `C31_root_package_refuted`. Strict total order proved; distance zero iff same name, negative iff inside, local package first. Finding: for a file without package, splitting the empty name yields one empty part, so packages (all inside the root) get positive distances.

### C32 Exactly one completion is preselected and client order is server order

A non-empty completion list has exactly one preselected item, and sorting the items by their sort text reproduces the server's order.

*Model and proof.* Proved for lists shorter than 100000; refuted beyond.

*Status: partial.* Theorems: `C32_one_preselected`, `C32_sort_text_order_partial`, `C32_sort_text_order_refuted`. Exactly one preselected item, order and labels kept: proved. Sort texts increase up to 100000 items. Finding: %05d overflows its width at item 100001, which sorts before the one preceding it.

### C33 Column segmentation is a partition

Splitting fields into alignment segments loses, duplicates and reorders no field.

*Model and proof.* Model with costs as an oracle; concat of segments = input.

*Status: proved.* Theorems: `C33_segments_partition`, `C33_columns_written`. Full statement proved, for any way of splitting the fields into groups (the logarithmic heuristic is an oracle).

### C34 Formatting imports keeps the set of imported files

The sorted import block imports exactly the files the source imports, each once, in lexical order, with the same public/weak modifiers.

*Model and proof.* Permutation + sortedness + set equality; modifiers refuted on duplicates.

*Status: partial.* Theorems: `C34_imported_files_kept`, `C34_each_once_partial`, `C34_distinct_imports_kept`, `C34_insertion_sorts`, `C34_modifier_kept_refuted`, `C34_commented_once_refuted`. Proved for every order sort.Slice may return: imported files, commented imports and order kept; files imported once unchanged. Findings: of `import "a"; import public "a"` only the plain import survives, so public is lost (formatter.go:315-328 keeps the first of the descending modifiers); duplicates with comments are all printed; the comparison function is not a strict weak order (292-314), which for insertion sort (at most 12 imports) is proved harmless.

### C35 Formatting preserves string literal values

A string literal printed by the formatter denotes the same bytes as the source literal.

*Model and proof.* Model of requoting with a lexer spec; refuted for single-quoted literals containing double quotes; proved otherwise.

*Status: partial.* Theorems: `C35_literal_value_iff`, `C35_literal_value_refuted`. Exact condition proved. Finding: a single-quoted literal with an unescaped double quote is re-quoted without escaping it (writeStringLiteral), which breaks the file or changes its meaning.

### C36 Formatting preserves comment boundaries

A comment moved inline by the formatter is still one comment with the same text.

*Model and proof.* Spec of block-comment extent; refuted for '*/' inside a line comment; proved without.

*Status: partial.* Theorems: `C36_block_comment_inline`, `C36_line_comment_inline_iff`, `C36_one_comment_refuted`. Exact condition proved for line comments; block comments proved. Finding: a line comment containing */ becomes a block comment that ends early.

### C37 Document URIs and import paths correspond one to one

At every moment URIToPath and PathToURI are inverse to each other: a known URI maps to a path that maps back to it.

*Model and proof.* State machine with the module lookup as oracle; refuted when two URIs map to one path, proved under injectivity.

*Status: partial.* Theorems: `C37_inverse_partial`, `C37_module_workspace`, `C37_plain_workspace`, `C37_latest`, `C37_change_moves`, `C37_change_leaves`, `C37_change_elsewhere`, `C37_shared_path_refuted`, `C37_semicolon_refuted`. Proved for every history without conflicting paths, and unconditionally for all histories of file events inside a Go module or a folder without one (with the exact set of known paths); without any assumption both maps hold the latest pair recorded. Findings: files outside the module's directory can share a path with one inside, and deleting either makes the other unresolvable (resolver.go:195-199 deletes by path without comparing URIs); PathToURI cuts paths at ';', so files with ';' in their name are never found.

### C38 Prefix-based workspace lookup picks the enclosing workspace

A document is served by a workspace only if it lies inside that workspace's folder.

*Model and proof.* Refuted for sibling folders; proved when the folder path is followed by a separator.

*Status: partial.* Theorems: `C38_possible_answers`, `C38_enclosing_partial`, `C38_single_folder_partial`, `C38_by_folder`, `C38_found`, `C38_sibling_refuted`, `C38_nested_refuted`, `C38_vendor_refuted`. Proved: the exact set of workspaces that can answer over all map orders, that a document in a folder (not under vendor...) always gets an answer, and that the answer encloses the document when folder paths are prefixes only of their contents. Findings (server.go:233-241): a folder /w/app also serves /w/app2; with nested folders the answer depends on map order; documents in /w/vendored are in no workspace.

### C39 The go_package directive is found

For a file whose go_package option is on a line of its own in canonical form, the quick scan returns exactly the import path in it (without the ;name part).

*Model and proof.* Scanner model; correctness for canonical lines.

*Status: partial.* Theorems: `C39_directive_found`, `C39_quotes_in_comment_refuted`, `C39_commented_out_refuted`, `C39_indented_refuted`, `C39_two_statements_refuted`. Full statement proved for lines of the canonical form. Findings outside of it: a trailing comment with quotes becomes part of the package path (LastIndexByte), directives in block comments are taken, indented directives are missed, an earlier semicolon on the line defeats the cut at the alias.

### C40 Byte string literals printed for descriptors round-trip

The literal printed for a bytes value denotes exactly that value.

*Model and proof.* Lexer spec for literals; refuted for '"'; proved for all strings without it.

*Status: partial.* Theorems: `C40_round_trip_iff_no_quote`, `C40_quote_refuted`. Exact condition proved: the literal denotes the value iff the value has no double quote. Finding: a double quote is printed as a lone backslash (print.go:2094), so the literal is unterminated or means something else.

### C41 Text string literals printed for descriptors round-trip

The literal printed for a string value denotes exactly that value, valid UTF-8 or not.

*Model and proof.* As C40 with a UTF-8 decoder; refuted for '"'.

*Status: partial.* Theorems: `C41_round_trip_iff_no_quote`, `C41_quote_refuted`. Exact condition proved for every byte string and every IsPrint that is right on ASCII: the literal denotes the value iff it has no double quote. Finding: as C40 (print.go:2140).

### C42 Printed reserved ranges denote the descriptor's ranges

The reserved statement printed for a message or enum reserves exactly the numbers reserved in the descriptor.

*Model and proof.* Denotation as set of integers; proved for messages, refuted for enums.

*Status: partial.* Theorems: `C42_message_ranges`, `C42_extension_ranges`, `C42_enum_ranges_iff`, `C42_enum_range_refuted`. Proved for messages and extension ranges. Finding: enum ranges include their end (protoreflect.EnumRanges), but are printed as if they did not (print.go:1330), so every enum range of more than one number loses its last number; exact condition proved.

### C43 Qualified names printed for descriptors resolve

The shortened name printed for a type, prefixed by some enclosing scope of the reference, is the type's full name, and protobuf's scoping rules resolve it to that type; with forced qualification it is the full name with a leading dot.

*Model and proof.* Component-wise proof; shadowing refuted.

*Status: partial.* Theorems: `C43_forced`, `C43_prefix`, `C43_literal`, `C43_resolves_partial`, `C43_shadowed_refuted`. The dropped prefix is characterised exactly; resolution is proved exactly when no inner scope defines the first component of the printed name. Finding: names are shortened without looking at what is defined (print.go:809), so a shadowed name resolves to something else.

### C44 Source locations of different elements are never confused

Two elements share a source-location key only if their paths are identical; looking up a path gives the locations recorded for that path, the first one first.

*Model and proof.* Injectivity by induction.

*Status: proved.* Theorems: `C44_keys_injective`, `C44_lookup`, `C44_put_if_absent`. 

### C45 Dependencies are generated before dependents

The order computed for compilation results contains each file once, exactly the reachable files, and every file after all its imports, for acyclic imports.

*Model and proof.* DFS model; invariant on sorted prefix; explicit panic outcome for imports outside the set.

*Status: partial.* Theorems: `C45_panics_exactly`, `C45_complete`, `C45_order`, `C45_acyclic`, `C45_driver_panics_exactly`, `C45_editions_refuted`. Full statement proved for the sort: it ends on every graph (also cyclic ones), crashes exactly if an import is missing, and otherwise lists each file once, after every import that does not lead back. Finding: the driver sorts only files that do not use editions (externalapi.go:37), so compiling a proto2/proto3 file that imports an editions file panics with a nil dereference (transform.go:21); exact condition proved.

### C46 Restoring original names is complete

After restoring, every synthesised file and every dependency on it carries the original name.

*Model and proof.* Proved unless a file's own name is already original; refuted otherwise.

*Status: partial.* Theorems: `C46_names`, `C46_exact`, `C46_complete_refuted`, `C46_references`, `C46_twice_refuted`, `C46_twice`. Names are always restored; the exact condition for imports is proved. Findings: imports of a file whose own name has no URI or already is the original name are not restored (transform.go:40, 44); the driver restores workspace-local files twice (driver.go:206-207), which can rename an import a second time.

### C47 Generated files are written only next to their sources

Code generation writes only into directories of the requested documents and reports every other output as an error.

*Model and proof.* Model of the output-directory map and write loop.

*Status: proved.* Theorems: `C47_writes_only_beside_documents`, `C47_success_means_all_written`, `C47_foreign_output_reported`, `C47_own_output_not_rejected`, `C47_output_beside_own_source_refuted`. Full statement proved. Auxiliary finding (C47_output_beside_own_source_refuted): two documents with the same go_package in different directories share one entry of the output map, so the first one's output lands in the second one's directory.

### C48 Go names derived from proto names are valid identifiers

For every proto identifier path the derived Go camel-case name contains only letters, digits and underscores and starts with an upper-case letter; the sanitised name is a Go identifier that is not a keyword.

*Model and proof.* Induction on the scan (ASCII).

*Status: proved.* Theorems: `C48_camel_case_exported`, `C48_characters`, `C48_camel_case_fixpoints`, `C48_camel_case_idempotent`, `C48_snake_case`, `C48_nested_names`, `C48_sanitized_identifier`, `C48_sanitized_unchanged`, `C48_distinct_names_refuted`. Full statement proved, with the fixed points, idempotence, the documented rule for snake-case names and the names of nested types. Finding: the mapping is not injective (foo_bar and FooBar), so two fields of one message may be looked up under one Go name.

### C49 The token under the cursor is found

For position-sorted, non-overlapping tokens, the lookup returns the token that contains the position if there is one.

*Model and proof.* Soundness and completeness of the scan.

*Status: partial.* Theorems: `C49_sound`, `C49_complete`, `C49_first`, `C49_inside`, `C49_only_candidate`, `C49_contains_refuted`, `C49_narrowest_refuted`. Proved: the result is always the first meaningful token touching the cursor, and the containing token whenever the cursor is strictly inside it. Findings: at a boundary between adjacent tokens the one that ends there is returned (search.go:590), so the statement fails for a cursor before the first character; of nested tokens the outer one is returned although the function promises the narrowest.

### C50 References are reported once each

Finding references reports every reference found in any file and no reference twice, under every schedule of the concurrent per-file searches.

*Model and proof.* Transition system with an atomic load-or-store set; final multiset theorem.

*Status: proved.* Theorems: `C50_once`, `C50_all`, `C50_same`, `C50_progress`, `C50_terminates`, `C50_no_panic`. Full statement proved: once each at every moment, all of them at the end, the same set for every schedule, progress, a bound on the number of steps, and no send on the closed channel.

### C51 Workspace-wide searches see every current result

A search over the whole workspace visits every file whose linked result (full or partial) is current, and visits nothing else.

*Model and proof.* On the state machine of C07: the searched list against the lookup function.

*Status: partial.* Theorems: `C51_search_visits_linked`, `C51_search_visits_only_current`, `C51_search_visits_partial_refuted`. Proved for linked files, and that only current results are visited. Finding: a partially linked file that never linked before is not visited.

### C52 Pragmas are those of the latest compilation

The pragmas known for a file are those of its most recently reported result.

*Model and proof.* Refinement to the latest report.

*Status: proved.* Theorems: `C52_pragmas_current`, `C52_latest_exists`. Full statement proved for reports that mention each path at most once.

### C53 Searching names by prefix is exact

Searching the descriptors of a file set by a name prefix returns exactly the declared names with that prefix, whether the prefix is relative to the package, a full name, or a full name with a leading dot.

*Model and proof.* Byte-string model; iff characterisation.

*Status: partial.* Theorems: `C53_relative_prefix_search_exact`, `C53_full_prefix_search_exact`, `C53_dotted_prefix_search_partial`, `C53_dotted_prefix_search_refuted`. Proved for relative and unqualified prefixes. Finding: with a leading dot, only files whose package itself starts with the prefix are searched, so a prefix that reaches beyond the package name finds nothing.

### C54 Tokens of a string literal with escapes cover it exactly

For a string literal that contains escape sequences, the tokens reported for it cover every character of the literal exactly once, and each escape sequence is exactly one token of its own.

*Model and proof.* Columns as naturals, regex matches as an arbitrary ordered list of intervals; tiling predicate.

*Status: partial.* Theorems: `C54_literal_covered_iff_partial`, `C54_gapless_partial`, `C54_quoted_raw_text_refuted`, `C54_literal_covered_refuted`. Finding: semantic.go:761-773 mixes two conventions for the raw text. If it excludes the quotes, the tokens are right iff the literal ends with an escape sequence (exact characterisation proved); otherwise its last character is reported as the closing quote. If it includes the quotes every escape is off by one.

### C55 Comment tokens cover the comment

The tokens reported for a comment cover exactly its characters, for single-line, multi-line and pragma comments.

*Model and proof.* Coverage predicate on (line, column) against the positions occupied by the text.

*Status: partial.* Theorems: `C55_multiline_comment_covered`, `C55_multiline_one_token_per_line`, `C55_plain_comment_covered`, `C55_only_pragmas`, `C55_pragma_comment_covered_iff_partial`, `C55_pragma_comment_covered_refuted`. Proved for multi-line and ordinary comments. Finding: semantic.go:371 compares the length of the text after the prefix with a length that includes the prefix, so a pragma's value of at most ten characters gets no token (exact condition proved).

### C56 Reports reach the client in order, at most once

The diagnostics reports a workspace publishes are a subsequence of those it flushed, in flush order; while the workspace is open none is lost.

*Model and proof.* Transition system with the one-element channel; conservation invariant.

*Status: proved.* Theorems: `C56_published_in_flush_order`, `C56_nothing_lost_while_open`. 

### C57 A flush always completes

Publishing diagnostics always terminates, also when the workspace is closed or re-indexed meanwhile.

*Model and proof.* Progress plus bounded work while open; exact characterisation of the blocked states.

*Status: partial.* Theorems: `C57_flush_completes_while_open_partial`, `C57_flush_completes_iff_partial`, `C57_closing_during_flush_blocks_refuted`. Finding: the receiving goroutine stops on cancellation without draining, so a flush with two more reports blocks in the channel send for ever, holding listenerMu, diagnosticsMu and the results lock. Completion while open is proved, and the exact set of blocked states.

### C58 Extracting fields loses nothing

Extracting fields into a new message keeps every field exactly once, either in the parent or in the new message, with its name and label; the parent's names and numbers stay distinct, and the new message is numbered 1..n.

*Model and proof.* Permutation of names and numbers; freshness from C29.

*Status: proved.* Theorems: `C58_extract_keeps_fields`. Full statement proved for messages with fewer than 100 field names.

### C59 Extraction is offered for sibling fields

The extract action is offered whenever the selection consists of fields of one message, and whatever is offered consists of wholly selected fields of one message.

*Model and proof.* Fold over the paths; soundness and completeness.

*Status: partial.* Theorems: `C59_single_field_offered_partial`, `C59_sibling_fields_offered_refuted`, `C59_offered_sound`. Soundness proved, completeness proved for one field. Finding: refactor.go:486 compares the parent message with the field node of later paths, so with two or more selected fields the action is never offered.

### C60 Simplifying repeated options preserves meaning

Simplifying repeated options collects all values of the field, in their order, into one array and changes nothing else.

*Model and proof.* Abstract scope; multiset and order of values, other declarations.

*Status: partial.* Theorems: `C60_values_kept_partial`, `C60_order_kept_partial`, `C60_documented_case_panics_refuted`, `C60_first_outside_panics_refuted`, `C60_other_elements_lost_refuted`, `C60_order_changed_refuted`, `C60_other_scopes_refuted`. Proved when the field's first mention is inside a container that has it as an array. Findings: the documented case (no container yet) and every case whose first mention is outside the container panic, since the first option is removed at 1103-1105 before being looked up at 1115; without an array the container is replaced and its other elements are lost; an array after single values reorders them; in enums, services etc. values are duplicated or lost (replaceWithinParent handles only messages and files). Commas are left out here; see C176, by which even the case proved depends on a comma after the last value of the array.

### C61 Accepting a completion replaces exactly the word

Applying the edit of a completion item turns the line into itself with the partial word (before and after the cursor) replaced by the completed word.

*Model and proof.* Code points with byte and UTF-16 lengths; edits on columns.

*Status: partial.* Theorems: `C61_accept_replaces_word_partial`, `C61_accept_replaces_word_refuted`. Proved for ASCII words. Finding: the range is computed from byte lengths while columns are UTF-16 units, so for import paths with other characters text after the word is removed too.

### C62 Block comments keep their text and reformatting them is idempotent

A comment written on its own line keeps every non-blank character in order and stays one comment; formatting the result again, at any indentation, changes nothing.

*Model and proof.* Visible-character projection; the line transformation is a projection.

*Status: partial.* Theorems: `C62_comment_text_kept`, `C62_comment_stays_one`, `C62_comment_idempotent_partial`, `C62_comment_idempotent_refuted`. Text and unity proved for all comments, idempotence for comments without lines that are blank but contain characters other than spaces and tabs. Finding: such a line (a carriage return in files with Windows line ends) counts as indentation 0 in computeIndent, and vanishes on output, so the second formatting moves the comment again.

### C63 Formatting keeps the order of repeated file options

Formatting sorts file options by name, standard ones first, and keeps the values of an option given several times in their order.

*Model and proof.* Insertion sort as in Go's sort for at most 12 elements; contract of sort.Slice beyond.

*Status: partial.* Theorems: `C63_file_options_order_partial`, `C63_values_order_refuted`. Proved up to 12 options. Finding: beyond that sort.Slice does not promise stability, so the values of a repeated custom option may be permuted, which changes its value; the refutation is of the documented contract of sort.Slice, not of one run of it.

### C64 An import path resolves to the document that has it

If a readable document of the workspace is known by a path, importing the path yields that document, whatever Go modules exist, and asking again yields the same document.

*Model and proof.* Lookup functions over maps and an arbitrary environment; invariant over lookup sequences.

*Status: partial.* Theorems: `C64_document_wins`, `C64_size_limit`, `C64_module_last`, `C64_google`, `C64_google_paths`, `C64_gogo_googleapis`, `C64_same_answer_partial`, `C64_google_document_refuted`, `C64_large_module_file_refuted`, `C64_gogo_fallback_refuted`. Proved outside google/ and, for repeated lookups, when module files are readable and at most 1 MiB long. Findings: the registry reports protoregistry.NotFound, which is not os.ErrNotExist, so every path under google/ that is not built in fails at once, even if the workspace or a Go module (googleapis) has it; module files over 1 MiB are served once and refused afterwards; a failed synthesis from Go code (503, wrapping a nil error) is a hard failure that skips the gogo.proto fallback.

### C65 The URI of a resolved path denotes the document that was served

After a path was resolved, converting the resolved path to a URI gives the document (file, built-in file, synthesized file) whose contents were served.

*Model and proof.* Same model; invariant on the synthetic files.

*Status: partial.* Theorems: `C65_uri_of_resolved_path_partial`, `C65_alias_ignored`, `C65_built_in`, `C65_google_document_refuted`. Proved for all sequences of lookups. Finding: a workspace file created under a google/ path takes over the path's URI although the built-in text continues to be served, so definitions and references point into the wrong file.

### C66 Imports relative to the importing file work

An import that names a file below the importing file's directory, and is not a known path, is served from that file.

*Model and proof.* Path algebra on component lists.

*Status: partial.* Theorems: `C66_module_relative_import`, `C66_cache_relative_import`, `C66_located`, `C66_not_local`, `C66_known_path_kept`, `C66_plain_workspace_refuted`. Proved for files of the local Go module and of the module cache. Finding: for workspaces without a Go module the translated path is made relative to the importing file's directory again (803), i.e. it is the path that just failed, so such imports never resolve outside the root folder. The lookup through generated code (296-306) is not modelled.

### C67 The import path of a file follows from its place in the Go module

A file in a Go module is known by the module path followed by its path in the module directory; different files get different paths.

*Model and proof.* filepath.Rel, Dir, Base and Join on component lists.

*Status: partial.* Theorems: `C67_module_relative_package`, `C67_import_paths_distinct`, `C67_directive_ignored`, `C67_outside_module_refuted`. Proved inside the module. Findings: filepath.Rel succeeds for any two absolute paths, so the go_package option is never consulted while there is a module (the code after 563 is dead for such files), and files outside the module directory get an invented package.

### C68 A suffix-matched import candidate lies where the paths agree longest

The candidate proposed for an import is the import laid over the importing file's directory where they agree, at the place where they agree in most components.

*Model and proof.* Array with in-place appends.

*Status: partial.* Theorems: `C68_bare_name`, `C68_match_exact`, `C68_longest_match_partial`, `C68_longest_match_refuted`. That the result is such a place, and exists iff there is one: proved. Longest agreement proved when the import does not repeat its first component. Finding: append(append(sourceParts[:i], ...)) (867) overwrites the array being searched, so scores of later places are wrong and a worse place can win.

### C69 Folder changes take effect

After a workspace-folder notification the server serves the previous folders without the removed ones, plus the added ones; reindexing keeps the folders and replaces every cache; after shutdown there are none.

*Model and proof.* State machine over folder maps; set characterisation by induction over histories.

*Status: partial.* Theorems: `C69_change`, `C69_change_as_asked_iff_partial`, `C69_rename_refuted`, `C69_reindex`. Proved for every history, with the exact condition for folder changes (no folder both added and removed). Finding: removals are processed after additions (server.go:783-793), so a notification that removes and re-adds a folder, e.g. to rename it, drops the workspace.

### C70 Background tasks end with their workspace

At every moment the diagnostics of exactly the served workspaces are being published: each served workspace has its background tasks, and no other tasks are running.

*Model and proof.* Invariant relating caches, cancel functions and running tasks.

*Status: partial.* Theorems: `C70_tasks_running`, `C70_no_leak_iff_partial`, `C70_leak_refuted`. Proved: no cancel function is missing, served workspaces have their tasks, and the exact condition for the absence of leaks (no folder added while known). Finding: adding a known folder again overwrites its cancel function (server.go:83), so the old cache publishes diagnostics for ever, also after shutdown.

### C71 Reindexing keeps what is in the editor

After reindexing, exactly the documents that were open are open, with their text and version.

*Model and proof.* Replayed modifications per overlay.

*Status: partial.* Theorems: `C71_open_documents_iff_partial`, `C71_versions_partial`, `C71_nothing_else_opened`, `C71_unsaved_new_document_refuted`, `C71_version_goes_back_refuted`. Proved: exact condition for a document and its text to be kept, exact versions, nothing else is opened. Findings (commands.go:117-146): documents that are not on disk yet are dropped with their text; saved documents are reopened with the disk file's version (dv, 0 in the refutation as for gopls disk files), which is below the client's.

### C72 The set of workspaces is never read while it changes

No request iterates over the set of workspaces while another one modifies it (which would stop the server).

*Model and proof.* Transition system with a read-write lock; invariant that modes, lock state and counters agree.

*Status: partial.* Theorems: `C72_no_concurrent_access_partial`, `C72_symbol_during_reindex_refuted`, `C72_shutdown_refuted`. Proved for any number of requests except workspace/symbol and shutdown, which do not lock (server.go:857, 772). Since commands run concurrently with later requests (C20), a symbol search during a reindexing command can stop the process.

### C73 Document links lead to the imported files and change nothing

Each import that can be resolved gets a link to the file it resolves to, no other links are returned, and the request does not change the compiled file.

*Model and proof.* Slices with in-place append.

*Status: partial.* Theorems: `C73_links`, `C73_short_dependencies_panic`, `C73_read_only_iff_partial`, `C73_read_only_refuted`. Links: proved when the dependencies are those of the imports plus possibly the implicit one. Read-only: exact condition proved. Finding: append(dependencyPaths[:i], ...) (links.go:50, inlayhints.go:131) overwrites the compiled file's dependency list, under a read lock only, unless the implicit dependency is last; the file then lacks descriptor.proto and lists another import twice. With fewer dependencies than complete imports the request panics (proved).

### C74 Import hints are right and can be accepted

A hint is shown for exactly the imports that resolve to another path; what is shown inside the quotes completes the import to that path; accepting the hint replaces the import by that path.

*Model and proof.* Line as byte list, hint columns.

*Status: proved.* Theorems: `C74_hint_iff`, `C74_hint_accepted`. Full statement proved for imports on one line (given the documented convention that node end positions are exclusive).

### C75 Edits and generation touch only files of the workspace

A file is accepted for renaming, code lenses and generation exactly if it is a real, regular, readable file inside the workspace folder that does not come from the module cache or the built-in files.

*Model and proof.* Decision function over facts about the file.

*Status: partial.* Theorems: `C75_local_file_partial`, `C75_accepted`, `C75_sibling_refuted`. Proved except for the folder boundary. Finding: strings.HasPrefix(filename, workspaceRoot) (resolver.go:608) accepts files of a sibling folder whose name starts like the workspace folder.

### C76 Go to generated definition looks up the declared name

For every message, enum, enum value, field, extension, service and method the declaration that is looked up in the generated Go code is the one the Go generators declare for it.

*Model and proof.* Lookup names against the generators' naming rules; exact condition.

*Status: partial.* Theorems: `C76_declared_exactly_if`, `C76_declared_refuted`. Exact condition proved. Findings: enum values whose name is a Go keyword or starts with an underscore, members of oneofs (generated as wrapper types), fields renamed because of a conflict (Reset, String, ...) and extensions declared inside messages (E_Outer_name) are never found.

### C77 Generated files belong to the document

The generated Go files found for a document are those in its Go package that were generated from it.

*Model and proof.* Preamble parser and file filter.

*Status: partial.* Theorems: `C77_source_read`, `C77_marked_files_kept`, `C77_files_of_package`, `C77_only_own_files_refuted`, `C77_versions_never_recorded`. Proved: the source line is read correctly; the files found are exactly the files of the package that carry the generated-code marker. Findings: the check is inverted (golang.go:133, !ok), so the source is compared only for files without a preamble, and all generated files of the package are returned; the versions in the preamble are never recorded (the inner loop starts at the '// versions:' line itself and stops there, golang.go:439).

### C78 The embedded descriptor of a generated file is found

The variable looked up for the raw descriptor in a generated Go file is the one the generator declares for that source path.

*Model and proof.* Lookup name against the generator's rule; exact condition.

*Status: partial.* Theorems: `C78_symbol_exactly_if`, `C78_symbol_refuted`. Exact condition proved (paths of letters, digits, underscores, slashes and dots that start with a letter). Finding: for other paths, e.g. with a dash, the variable is not found (golang.go:294 replaces only slashes and dots).

### C79 Imports are resolved through generated code only if unambiguous

An import is resolved through the Go imports of generated files exactly if one imported package ends with the import's directory; the result does not depend on the order or number of files.

*Model and proof.* Candidate list with duplicates removed.

*Status: partial.* Theorems: `C79_unique_candidate`, `C79_order_irrelevant`, `C79_component_boundary_refuted`. Proved for the textual suffix. Finding: the suffix is not matched at a component boundary (generated.go:173), so example.com/myapi is taken for directory api and makes example.com/api ambiguous.

### C80 The Go package option is understood

The option path;name gives the path and the name, a path alone leaves the name open, a bare name is the name of the package at the path implied by the document's place, and without an option that path is used with any name.

*Model and proof.* Decision function.

*Status: partial.* Theorems: `C80_path_and_name`, `C80_path_only`, `C80_name_only`, `C80_implicit`, `C80_single_word_module_refuted`. Proved except for modules whose path is a single word. Finding: then the implied path is taken for a package name (golang.go:106) and files of a differently named package are not found.

### C81 The printer's writer loses nothing but blanks

The text written is the concatenation of all writes, except that one trailing blank is left out where the next write starts with a semicolon or comma and at the very end; each write reports all its bytes.

*Model and proof.* Invariant relating the output to the list of writes.

*Status: proved.* Theorems: `C81_output`, `C81_only_blanks_lost`, `C81_reports_everything`. 

### C82 Printed comments are comments

A comment is printed as line comments or as one block comment that ends at its last mark; every line of the comment appears, up to one added blank in front and blanks at the end; printing never fails.

*Model and proof.* Scanner for closing marks; split of the output into lines.

*Status: partial.* Theorems: `C82_panics_iff`, `C82_blank_comment_refuted`, `C82_nothing_iff`, `C82_line_comments`, `C82_block_comments`. Proved for both styles. Finding: the comment that consists of two newlines (two empty // lines) makes the printer panic with an index out of range when it is printed inline or with multi-line style (print.go:2668); exact condition proved.

### C83 Workspace-local descriptors are the files of the workspace

The workspace-local descriptors returned by the SDK's driver are, in dependency order, exactly those of existing files below the workspace folder.

*Model and proof.* Relative paths as component lists; exact condition.

*Status: partial.* Theorems: `C83_exact`, `C83_at_workspace`, `C83_sublist`, `C83_no_location`, `C83_other_directory_refuted`. Exact condition proved. Finding: existence is tested with the workspace-relative path (driver.go:234), i.e. relative to the current directory of the process, so the statement holds in the workspace folder only.

### C84 Go packages are inferred consistently

A file without go_package gets that of the files in its directory with the same proto package, or its directory if there is none; if the directory mixes packages an error is reported; the order of the files does not matter.

*Model and proof.* Fold with the map of inferred packages; invariant relating it to the directory.

*Status: partial.* Theorems: `C84_from_directory`, `C84_explicit_kept`, `C84_consistent`, `C84_meant_unique`, `C84_order_refuted`, `C84_other_package_refuted`. Proved for directories whose files agree; always: no error means every file has a package taken from its directory. Findings: once a package has been inferred for a directory it is used for later files of other packages without a check (protogen.go:69), so the order of the files decides between an error and a wrong package.

### C85 Completing a go_package keeps its name

A go_package that is a bare name is completed with the file's directory as import path and keeps its package name.

*Model and proof.* Exact condition.

*Status: partial.* Theorems: `C85_exact`, `C85_name_refuted`, `C85_named_refuted`. Import path proved; exact condition for the name. Finding: the directory is compared by textual suffix (protogen.go:43), so go_package bar in directory foobar becomes package foobar; an option name;alias is mangled.

### C86 Creating the generator plugin does not crash

For every set of documents to generate, creating the plugin returns a plugin or an error.

*Model and proof.* protogen's requirements as a predicate on names; proof that restoring keeps them.

*Status: partial.* Theorems: `C86_no_panic`, `C86_all_or_problems`, `C86_two_packages`, `C86_renamed_target_refuted`, `C86_renamed_import_refuted`, `C86_collision_refuted`. Proved when targets are not renamed, restored names stay distinct and files whose name is original import only such files. Findings: each condition is needed: targets are looked up by the name before restoring (protogen.go:125), and protogen's error becomes a panic (protogen.go:135).

### C87 Every diagnostic of a compilation is reported

Compiling with the SDK's driver gives one message per diagnostic with its severity, line and text; warnings and errors show the source line with the range highlighted; the error flag is set exactly if there is an error; compiling never crashes.

*Model and proof.* Offsets of lines by induction on the content; slices with explicit panics.

*Status: partial.* Theorems: `C87_line`, `C87_last_line`, `C87_other`, `C87_all`, `C87_crash_refuted`, `C87_dropped_refuted`, `C87_last_character_refuted`. Proved for single-line diagnostics on all lines but the last. Findings: a warning or error on an empty last line makes Compile panic (slice bounds, driver.go:164); the last character of a file without final newline is cut off; diagnostics over several lines are not reported (driver.go:112); exact conditions proved.

### C88 Code is generated for the files below the search directories

With the default strategy code is generated exactly for the workspace's files below one of the search directories.

*Model and proof.* Exact condition; containment for component paths.

*Status: partial.* Theorems: `C88_exact`, `C88_below`, `C88_below_relative`, `C88_neighbour_refuted`, `C88_trailing_slash_refuted`, `C88_two_places_refuted`. Files below a search directory are generated if import directories are unambiguous. Findings: directories are compared by textual prefix (generator.go:125), so api includes apiv2 and an absolute directory with a trailing slash includes nothing; two places of one import directory are confused (generator.go:115).

### C89 Generated files are placed next to their sources

The path of a generated file is in the directory of the source file it was generated from.

*Model and proof.* Lookup in the map of source directories.

*Status: partial.* Theorems: `C89_beside_source`, `C89_absolute`, `C89_known`, `C89_unknown`, `C89_unknown_refuted`, `C89_top_level_refuted`. Proved for outputs named after the import directory of their source. Findings: with another go_package, and for sources without directory, the path is relative to the current directory (generator.go:178-184; the key of such sources is ".", that of the output "").

### C90 A generated file can be read

Reading a generated file through its reader interface to the end gives its content.

*Model and proof.* io.ReadAll as a loop over reads.

*Status: partial.* Theorems: `C90_single`, `C90_never_ends`, `C90_reader_refuted`. False for every content (C90_never_ends): Read keeps no position and never reports the end (generator.go:41), so io.ReadAll and io.Copy never finish.

### C91 Running an external plugin ends

Running an external generator plugin ends with the plugin's complete response or an error, whatever the size of request and response.

*Model and proof.* Transition system of two processes and two bounded pipes; invariant, progress and measure.

*Status: partial.* Theorems: `C91_batch`, `C91_streaming_refuted`. Proved for plugins that read the whole request before they answer. Finding: the request is written completely before the response is read (generator.go:71-79), so a plugin that answers while it reads deadlocks on requests larger than the pipes, for every capacity.

### C92 Searching finds the sources

Searching directories finds each .proto file below them once, except in vendor, node_modules and bazel directories and in directories marked DO_NOT_BUILD_HERE.

*Model and proof.* Tree induction; exact inductive characterisation of what is visited.

*Status: partial.* Theorems: `C92_exact`, `C92_unmarked`, `C92_sound`, `C92_once`, `C92_marker_refuted`, `C92_overlap_refuted`, `C92_missing_refuted`, `C92_vendor_refuted`. Exact characterisation proved; the full statement for a single existing root without markers. Findings: a marker only hides what sorts after it (search.go:36); overlapping roots give duplicates; a missing root panics on a nil entry (search.go:20); a root named vendor or node_modules is skipped.

### C93 The innermost nodes around a selection are found

For a selected range the search returns exactly the declarations of greatest depth that the walk over the range reaches, in source order, and reports nothing found exactly if there is none.

*Model and proof.* Tree induction; the pruned list's last run equals the filter by maximal depth.

*Status: proved.* Theorems: `C93_deepest`, `C93_found`, `C93_not_empty`, `C93_source_order`, `C93_skipped_subtree`. Full statement proved; the walker's range filter is an arbitrary predicate.

### C94 The innermost declaration at a position is found

For a position the search returns the deepest declaration that holds the position; declarations hold the positions from their first character up to their closing token.

*Model and proof.* Tree induction; exact interval lemmas for positions.

*Status: partial.* Theorems: `C94_deepest`, `C94_first`, `C94_found`, `C94_half_open`, `C94_closed`, `C94_rpc_body_never`, `C94_innermost_refuted`. Proved for what the visitor records: the first deepest candidate; half-open intervals for closed declarations, closed intervals otherwise. Finding: the condition for rpcs repeats Semicolon != nil (search.go:712), so an rpc with a body is never the result and a cursor in it finds the service instead.

### C95 A rename is refused unless the new name can be used

Renaming accepts a new name only if it is an identifier and nothing is called that in the symbol's scope; the symbol stays in its scope and gets exactly that name.

*Model and proof.* Characterisation of the accepted names by their components.

*Status: partial.* Theorems: `C95_accepted`, `C95_name_check`, `C95_identifier_partial`, `C95_identifier_refuted`, `C95_taken`. Proved: accepted names are free, keep the scope, and consist of identifiers separated by dots; without dots they are identifiers. Finding: only the joined full name is checked (rename.go:94), so a new name with dots is accepted and written into every reference.

### C96 A rename changes every use and nothing else

The edits of a rename, applied to the documents, give exactly the documents in which every use of the symbol has the new name, with qualifications kept; all edits are in workspace documents and if one use cannot be edited nothing is changed.

*Model and proof.* Documents as text with uses; induction on the document with splicing of edits; permutation invariance.

*Status: partial.* Theorems: `C96_local`, `C96_all_or_nothing`, `C96_renamed_partial`, `C96_rpc_refuted`, `C96_skipped_refuted`. Proved for every workspace without qualified rpc types. Findings: the range of an rpc's request or response type includes its qualification (rename.go:165), which the edit removes; a reference whose last component has no valid position, or a field reference with another kind of name, is silently left (rename.go:127-147).

### C97 After a rename references mean the renamed symbol

After the edits of a rename every reference to the symbol resolves to it under its new name, and references to other symbols resolve as before.

*Model and proof.* Scoping as search from the innermost scope outwards; exact condition for capture.

*Status: partial.* Theorems: `C97_resolves_partial`, `C97_captured_refuted`, `C97_capturing_refuted`. Proved exactly when: a simple reference still resolves to the symbol if and only if no scope between has a member of the new name. Findings: only the symbol's own scope is checked (rename.go:99), so inner declarations capture renamed references and the renamed symbol captures references to outer ones.

### C98 What prepareRename offers, rename does

PrepareRename offers the symbol's name exactly for declarations whose document is in the workspace and parses; where nothing is offered rename fails; where it is offered rename fails only for a bad or taken name, an unknown source or a reference that cannot be edited.

*Model and proof.* Exact conditions on both sides.

*Status: proved.* Theorems: `C98_offered`, `C98_not_offered`, `C98_offer_kept`. Full statement proved.

### C99 References to a package are found by component

Asking for references at a component of a package name returns, for each file whose package starts with the same components (at the last component: whose package is the same), the range of these components, once per file; hovering shows the same name and range; where a reference is found from either side it is found from the other.

*Model and proof.* Names as component lists; join and split are inverse; exact membership.

*Status: partial.* Theorems: `C99_package_references`, `C99_once`, `C99_compound_checked`, `C99_simple_unchecked_refuted`, `C99_symmetric_refuted`, `C99_hover`. Exact result proved for indexes that search by component. Findings: the relation is not symmetric (package foo; is found from foo.a but not the other way round, packages.go:57); simple names are not compared at all in a prefix search (packages.go:98), compound ones are.

### C100 References are complete and the declaration is optional

References to a symbol are the declaration, first and only if it is asked for, and one location for every reference in a document with a URI; for a package, leaving out the declaration leaves out exactly the document asked in.

*Model and proof.* Exact result lists.

*Status: proved.* Theorems: `C100_symbol`, `C100_located`, `C100_count`, `C100_package`. Full statement proved; the search for the references itself is C50.

### C101 The outline shows the file

The document outline shows every declaration of the file, inside the declarations that contain it, in the order of the source, once, with ranges nested as the protocol requires.

*Model and proof.* Induction on declarations; equality of the list of shown and of declared names.

*Status: partial.* Theorems: `C101_sound`, `C101_complete_partial`, `C101_types_shown`, `C101_oneof_refuted`, `C101_group_refuted`, `C101_ranges`. Proved: what is shown is a sublist of what is declared; equal for files without oneofs, groups and unfinished fields; types are always shown unless in groups; ranges nest. Findings: fields of oneofs (symbols.go:161) and groups with everything in them are missing.

### C102 Code lenses offer to generate workspace files

Lenses are offered exactly for files of the workspace without the nogenerate pragma: for the file, for the files of its package if it has one, and for the workspace; only files of the workspace are concerned.

*Model and proof.* Exact conditions.

*Status: partial.* Theorems: `C102_offered`, `C102_package`, `C102_outside_refuted`. Proved except the last part. Finding: the package lens includes files outside of the workspace (codelens.go:44), for which the command then writes files next to them.

### C103 Base64 input is decoded

The decode command given a message in standard or URL base64, padded or not, with white space around it, decodes exactly that message.

*Model and proof.* A separate encoder; the alphabets agree where both decode; induction by groups of three bytes.

*Status: partial.* Theorems: `C103_decoded`, `C103_whole`, `C103_not_decoded`, `C103_wrapped_refuted`. Round trip proved for all four encodings. Finding: base64 broken into lines, as base64(1) prints it, is not decoded (decode.go:181) and read as a binary message.

### C104 Binary input is decoded as it is

The decode command given the bytes of a message decodes exactly these bytes; it reports missing input exactly if there is only white space.

*Model and proof.* An exact condition, and witnesses.

*Status: partial.* Theorems: `C104_unchanged_iff`, `C104_white_space`, `C104_space_lost`, `C104_unchanged_refuted`, `C104_digits_refuted`, `C104_no_input`. The exact condition is proved; the statement itself is false. Findings: every message that starts or ends with a byte that is white space is cut (decode.go:192), among them every message that starts with a length-delimited field 1 (tag 0x0A); a message all of whose bytes are base64 digits is decoded as base64.

### C105 The message type is chosen predictably

A full name always selects that message; otherwise all messages with that simple name are meant, otherwise all whose full name contains the text ignoring case; one is used, of several the user chooses; the order of files does not matter; for an unknown type the wire format is shown.

*Model and proof.* Filters as the specification; permutations.

*Status: partial.* Theorems: `C105_full_name`, `C105_last_name`, `C105_otherwise`, `C105_any_case`, `C105_found_iff`, `C105_any_order`, `C105_fallback_refuted`, `C105_listed`, `C105_inner_refuted`, `C105_inner_other_refuted`, `C105_full_name_file`. Proved for messages not declared in others, except the last part. Findings: messages declared in others are not among those chosen from (pkg/lsp/externalapi.go:89-95), so the full name of one is not found or selects another message that contains it; the help text promises the wire format for unknown types, the command fails instead.

### C106 Files are formatted independently

The fmt command formats all named files concurrently; when it is done each file that parses is formatted and no other file has changed, whatever the schedule and however often a file is named.

*Model and proof.* Invariant per goroutine over all schedules.

*Status: partial.* Theorems: `C106_formatted_partial`, `C106_any_moment`, `C106_twice_refuted`. Proved for files named once; at any moment before the end a file is old, formatted, or formatted with an old ending. Finding: a file named twice can be damaged although both goroutines succeed.

### C107 Imports link to the files they resolve to

Each request for document links returns one link for each complete import whose file has a URI, from its literal to that file, whatever was requested before; the request changes nothing and does not crash.

*Model and proof.* The slice append as a function on the shared list; an invariant over request histories; exact conditions for crashing and for changing the list.

*Status: partial.* Theorems: `C107_links`, `C107_crash_iff`, `C107_other_name_refuted`, `C107_kept_iff`, `C107_kept_refuted`. Links proved for all histories; exact conditions for the rest. Findings: removing the implicit descriptor.proto with append (links.go:50) overwrites the file descriptor's own list under the read lock, so the dependency is lost and the last one duplicated; an import that resolves to google/protobuf/descriptor.proto under another name makes both requests crash.

### C108 Import hints show and apply the resolved path

A hint is shown exactly for imports that resolve to another path; shown inside the literal it makes the literal read as that path, otherwise it is that path; accepting it makes the literal that path, after which no hint is shown.

*Model and proof.* Lines split around the literal.

*Status: proved.* Theorems: `C108_hints`, `C108_shown_iff`, `C108_accept`, `C108_reads`. Full statement proved, for literals of one piece in lines where columns are characters.

### C109 Formatting does not lose text

A formatting request is answered for the document's current text: with no edits if it does not parse or opts out, otherwise with edits to its formatted form.

*Model and proof.* Atomic reads interleaved with the steps of a change; induction over the schedule.

*Status: partial.* Theorems: `C109_undisturbed_partial`, `C109_latest_partial`, `C109_only_formatted`, `C109_erased_refuted`. Proved while no change is under way, and always: nothing but the formatted form of some earlier text is written. Finding: the check, the text and the syntax tree are read at three moments without a common lock, so a change in between makes edits that take back what was typed (schedules that allow it: C20).

### C110 Formatting writes back the same file

The text produced by formatting a file reads as that file: every word of every declaration is written, in the declared order and spelled as in the source (quotes of string literals apart); only optional separators and brackets may be added or left out, file options and imports are gathered at the front and a repeated import may be dropped, and the text is lexically complete.

*Model and proof.* A lexer automaton as specification; a Hoare logic over the writer state that tracks the lexical state and the words written; induction over values and declarations.

*Status: partial.* Theorems: `C110_words_partial`, `C110_tokens_partial`, `C110_leading_dot_refuted`, `C110_dropped_option_refuted`, `C110_two_packages_refuted`. Proved for all trees but those the formatter gets wrong. Findings: the leading dot of an unlabelled field type is written twice; options after a string of several literals are dropped when the list stays on one line; of several package declarations only the last is kept. The 16 unit tests of the formatter are replayed in FormatTree/Cases.v.

### C111 Formatting a valid file succeeds

Formatting a file without syntax errors neither crashes nor reports an error.

*Model and proof.* Crash flag carried through the Hoare logic of C110; a second Hoare logic over the pending and the current indentation (FormatTree/Balance.v); computed counterexamples.

*Status: partial.* Theorems: `C111_no_crash_partial`, `C111_crash_refuted`, `C111_error_refuted`, `C111_uneven_refuted`, `C111_no_error_partial`. No crash is proved for the trees of C110. Findings: a last multi-line compact option that is a string of several literals without a trailing comma dereferences a nil comma; two strings of several literals in a one-line message literal make Format report an indentation error for a valid file, and so do two nested literals of which one starts its lines deeper than the other. No other file is refused: when the literals of each declaration break into lines at one depth there is no error and the indentation ends at the margin.

### C112 Formatting keeps every comment

Every comment of the source is in the formatted text, once.

*Model and proof.* For every writer, the comments it is given that its output shows; composed over the tree by induction; the places where nothing is claimed are listed in CommentSpec.v. Computed counterexamples for these.

*Status: partial.* Theorems: `C112_comments_kept_partial`, `C112_method_comment_refuted`, `C112_empty_comment_refuted`, `C112_method_end_refuted`, `C112_brace_end_refuted`, `C112_option_value_refuted`, `C112_option_dot_refuted`, `C112_doubled_refuted`. Proved: a comment outside the places listed in CommentSpec.file_lost is shown in the output (a comment with the same content is in the text). Findings, each a refutation: lost are the comments inside the braces of a method without options, the comment after a method without options (`rpc A(B) returns (C); // x`), comments of empty declarations, the comment after a semicolon that follows a closing brace, comments around the one-token value of an option, comments after a dot of an option name. A comment after an option name in a list over several lines is written twice, and doubles again every time the file is formatted.

### C113 Source printed for a descriptor declares what the descriptor declares

The text printed for a file descriptor without source information parses, and its messages, fields, oneofs, extensions, enums, services, options, defaults, ranges and reservations, with every name resolved where it stands, are those of the descriptor.

*Model and proof.* A parser and a meaning of statements as specification; refinement of the printer to a syntax tree; the facts of the tree are a permutation of the descriptor's.

*Status: partial.* Theorems: `C113_names_partial`, `C113_declares_partial`, `C113_same_text_partial`, `C113_infinity_refuted`, `C113_nan_refuted`, `C113_rounding_refuted`, `C113_keyword_refuted`, `C113_edition_refuted`, `C113_reserved_refuted`. Proved for all admissible descriptors, and the names printed resolve in the scope where the language begins to look exactly if nothing further in shadows them; each condition has a computed counterexample. Findings: infinite defaults print as +Inf and do not parse; NaN prints as an unknown identifier; numbers are rounded to six digits after the point; a message named like a statement cannot be a bare field type; editions print a syntax statement naming none; enum reserved ranges lose their last number.

### C114 Printed words do not run together

In the text printed for any file descriptor two neighbouring words, numbers or strings are separated by a blank or punctuation.

*Model and proof.* Invariant on the first and last token of every part.

*Status: proved.* Theorems: `C114_apart`. Full statement proved, for the modelled part (no source information).

### C115 The first value of a printed enum is the descriptor's first value

The first value of an enum, which is its default, is the first value in the text printed for it.

*Model and proof.* Invariant of the insertion sort; computed counterexample.

*Status: partial.* Theorems: `C115_first_value_refuted`, `C115_first_value_partial`. False in general: values are sorted by number, so an enum whose first value is not the least gets another default (and, in proto3, a first value other than zero). Proved for the top-level enums whose first value is the least and that sort by insertion.

### C116 A call through a generated gRPC client arrives at that method of the server

For every method of every service in a generated file that Go accepts, the client's method makes one call, of the path /service/method with the directions declared for it, and a server that registered the service answers that path by running the method of the same name with the declared request type; no other outcome is possible.

*Model and proof.* A relational meaning of the generated declarations under grpc-go's dispatch; the two indices are shown to name the same method by induction over the method list.

*Status: proved.* Theorems: `C116_file`, `C116_call`, `C116_served`. Full statement proved under grpc-go's contract for Invoke, NewStream and RegisterService (Grpc/Spec.v).

### C117 Generated gRPC code declares no name twice

The Go declarations generated for a file that the compiler accepts have distinct names.

*Model and proof.* Names as structured symbols with an injective spelling; computed counterexamples.

*Status: partial.* Theorems: `C117_distinct_partial`, `C117_new_refuted`, `C117_unsafe_refuted`, `C117_underscore_refuted`, `C117_stream_refuted`, `C117_case_refuted`, `C117_own_refuted`, `C117_refuted`. False in general; proved with generic streams when Go names are distinct, have no underscore in service names and none is another after New, Register, Unimplemented or Unsafe. Findings: services Foo and NewFoo, A{B_C} and A_B{C}, A{stream B} and A_B, methods get and Get, and without generic streams Foo{stream Bar} and FooBar, give Go code that does not compile.

### C118 Generated gRPC types implement the generated interfaces

The client struct has every method of the client interface, the Unimplemented server every method of the server interface, stream objects those of the declared stream types, and every handler calls a method the server interface has with the arguments it takes.

*Model and proof.* Case analysis over streaming kinds and modes for each declaration of the file.

*Status: proved.* Theorems: `C118_client`, `C118_server`, `C118_fits`, `C118_streams`. Full statement proved for the modelled declarations.

### C119 The descriptor found at a declaration's name is that declaration

For the name of any message, field, map, group, oneof, enum, value, extension, service or method of a linked file, the search for the descriptor at that place (hover, go to definition, references, rename) gives the descriptor of the declaration the name belongs to.

*Model and proof.* Relation between paths of syntax nodes and descriptors as specification; invariant of the climb and the descent.

*Status: partial.* Theorems: `C119_name_partial`, `C119_in_group_refuted`, `C119_in_group_fails_refuted`, `C119_oneof_group_refuted`, `C119_ext_group_refuted`, `C119_map_refuted`. Proved for all names but those the search gets wrong. Findings: messages in a group are looked up by name in the file, so another message of that name, or none, is found; groups in oneofs or extend blocks are not found; the name of a map field whose value type is a top-level message of a file without package gives that message.

### C120 The descriptor found at a type name is the type

At the type of a field, extension, map value or method, the search gives the descriptor of that type; at the extendee of an extend block, the extended message; at a map's key type, nothing.

*Model and proof.* As C119, extended by the last step of the descent.

*Status: partial.* Theorems: `C120_type_partial`, `C120_scalar`, `C120_method`, `C120_key`, `C120_extendee`, `C120_map_enum_refuted`, `C120_map_message_refuted`, `C120_nested_extendee_refuted`. Proved for message types everywhere the name of the field is found, for enums except as map values, for methods, keys and top-level extendees. Findings: an enum that is the value of a map is not found; in a file without package neither is a message; the extendee of a nested extend block is found only if written with its full name.

### C121 Accepting an option's name writes that name

When an item offered for the name of an option is accepted, the text is as before except that the name at the cursor, if any, is replaced by the option's: plain for a field, in parentheses for an extension (in a message literal, in brackets).

*Model and proof.* Arithmetic on columns for each kind of reference and every place of the cursor; computed counterexamples for the rest.

*Status: partial.* Theorems: `C121_new`, `C121_plain_partial`, `C121_extension_partial`, `C121_shown`, `C121_no_parentheses_refuted`, `C121_blanks_refuted`, `C121_not_closed_refuted`, `C121_literal_refuted`, `C121_field_refuted`. Proved where no name is typed, for fields replacing plain names, and for extensions replacing names in parentheses, with the cursor anywhere. Findings: an extension taken for a name typed without parentheses is inserted without them; blanks inside parentheses, an unclosed one, brackets of a message literal and fields offered for a name in parentheses give wrong text.

### C122 What may still be set is offered, and nothing else

The options offered are the fields of the options' message that start with what is typed, are not set yet or may be repeated, and its extensions that are not set.

*Model and proof.* Equivalence of membership in the list of items with the specification.

*Status: partial.* Theorems: `C122_fields_partial`, `C122_preselected`, `C122_keyword`, `C122_extensions_partial`, `C122_parentheses`, `C122_no_extensions`, `C122_again_refuted`, `C122_extension_again_refuted`, `C122_gogo_refuted`, `C122_oneof_refuted`. Proved: the exact set of fields given what is known to be set, exactly the settable ones after the keyword, and the exact set of extensions. Findings: once a letter of the name is typed, options already set are offered again; extensions already set always are; those of gogoproto are hidden; other members of a oneof that is set are offered in message literals.

### C123 The options offered are those of the element edited

In an option statement or a list of options in brackets, the options offered are those of the innermost declaration around it.

*Model and proof.* The walk stops at the declaration, whose descriptor the search finds (C119); computed counterexamples.

*Status: partial.* Theorems: `C123_element_partial`, `C123_file`, `C123_method_refuted`, `C123_oneof_refuted`, `C123_value_refuted`, `C123_map_refuted`, `C123_group_refuted`, `C123_brackets_refuted`. Proved for messages, fields, extensions, enums, services and files, wherever C119 holds. Findings: inside an rpc the options of the file are offered, in a oneof or at a map field those of the message, at an enum value those of the enum; in a group the options set on the message around it count; in empty brackets of a field, the fields of its type are offered instead of options.

### C124 Accepting a name from another file makes it visible and keeps the imports sound

After a completed type or extension is accepted the file sees it; an import is added exactly if it did not see it before; everything visible before stays visible; the import written names the declaring file; and no import cycle arises.

*Model and proof.* Inductive visibility and reachability over the import graph; adding an edge makes a cycle exactly if its end reached its start.

*Status: partial.* Theorems: `C124_visible`, `C124_others_kept`, `C124_acyclic_partial`, `C124_cycle_refuted`, `C124_statement_partial`, `C124_statement_refuted`. Proved, except that a name declared in a file that imports this one, directly or not, is offered, and accepting it makes an import cycle (the theorem says exactly when); the path is written without escaping.

### C125 Package names offered are those in use beside the file

For the package statement, the name of the file's directory (if it is a valid name) and the packages of the other files in it are offered, those that start with what is typed, each once and in ascending order.

*Model and proof.* Membership and sortedness of the composed list functions.

*Status: partial.* Theorems: `C125_packages_partial`, `C125_ascending`, `C125_root_refuted`, `C125_empty_refuted`. Proved for files whose path starts with their directory. Findings: at the root of the tree the directory is '.', no path starts with it, and nothing is offered; a file without a package makes the empty name an offer.

### C126 Adding an undeclared type declares it and disturbs nothing

The fix offered for an undeclared name adds an empty message of that name behind the last declaration, puts the cursor into its body and shows it; the name is then declared, every other name keeps its meaning, and the rest of the text, comments included, stays with what it belongs to.

*Model and proof.* Positions as a fold over the text, with a lemma for offsets behind a prefix; search of a name over the enclosing scopes.

*Status: partial.* Theorems: `C126_text`, `C126_qualified`, `C126_declared`, `C126_others`, `C126_comment_refuted`. Proved, except for comments: one that stands behind the last token on its line ends up behind the new message. Offered only for unqualified names.

### C127 Removing an unused import removes nothing else

The fix offered for an unused import deletes that statement and nothing else that is visible; unused imports, and nothing else, become warnings and are shown as unnecessary.

*Model and proof.* Exact text after the edit for every split of the text into lines.

*Status: partial.* Theorems: `C127_lines`, `C127_alone_partial`, `C127_neighbour_refuted`, `C127_broken_refuted`, `C127_greyed`, `C127_severity`. Proved: exactly the lines the statement touches are deleted, so the claim holds if it is alone on them. Findings: another import or the beginning of a declaration on those lines is deleted too, which may leave a file that does not parse.

### C128 Workspaces are told what happens to their files

A notification that files were created, changed, deleted or renamed tells every workspace exactly the events of its files, in order and at once.

*Model and proof.* Induction over the notification with the groups built so far.

*Status: partial.* Theorems: `C128_told`, `C128_on_disk`, `C128_refused_partial`, `C128_created_refuted`, `C128_moved_refuted`. Proved for every notification that is not refused; changes of watched files never are. Findings: a creation, deletion or renaming is refused as a whole if one file is in no workspace, so the others are not heard of, and a file moved into or out of the workspace is not noticed.

### C129 File notifications do not stop the server

Creating, deleting or renaming any number of files at a time leaves the server running, with the files concerned compiled again.

*Model and proof.* Composition of the resolver's update with DidModifyFiles; exact condition for the panic of slices.Delete.

*Status: partial.* Theorems: `C129_created_partial`, `C129_deleted_partial`, `C129_renamed_partial`, `C129_deleted_refuted`, `C129_renamed_refuted`, `C129_two_renamed_refuted`. Proved for any number of creations, one deletion, one renaming. Findings: the paths of deleted files are forgotten before they are looked up (documents.go:62, 69), and unresolved events are removed by stale indices (89-91): deleting two or more files at a time always panics, so does renaming three or more; renaming two applies the wrong event.

### C130 Hovering over a name shows its declaration

Hovering over the name of a declaration shows that declaration and nothing else: one code block whose code is a spelling of the declaration, with its comments.

*Model and proof.* The formatter's theorem on declarations, transported over the trimmed line breaks; a Markdown reader of fenced blocks; no token of a declaration is a backquote.

*Status: partial.* Theorems: `C130_shows_partial`, `C130_cut`, `C130_comments_partial`, `C130_fence_partial`, `C130_map_refuted`, `C130_oneof_refuted`, `C130_group_refuted`, `C130_fence_refuted`, `C130_around`, `C130_nothing`. Proved for declarations other than maps, oneofs and groups whose text has no line that ends the block; such a line can only start inside a block comment or a literal. Findings: hovering over a map field, a oneof or a group shows the message around it; a block comment with a line of three backquotes ends the code before the declaration. Not modelled: which declaration the cursor's name stands for (C119, C120).

### C131 Every token is highlighted once, as what it is

In every file, each keyword, name, number, string and operator is reported as highlighted exactly once and with the type and modifiers of its role; punctuation and what is not in the file is not reported.

*Model and proof.* The roles of all tokens, written down per construct; a permutation between reported and expected tokens by induction over the tree.

*Status: partial.* Theorems: `C131_roles`, `C131_shown_partial`, `C131_linked_partial`, `C131_option_value`, `C131_field_value`, `C131_url_refuted`, `C131_special_refuted`, `C131_list_refuted`, `C131_lines_refuted`, `C131_library_refuted`, `C131_library`, `C131_float_value`, `C131_library_marks`. Proved as a permutation for every tree without results of the linker, up to slashes of type URLs; with them, only values of fields and options are reported besides. Findings: the slash of a type URL is reported as type and as operator; inf and nan as a field's value and booleans in lists are reported twice; a name over two lines is one item whose length is computed from columns and may be negative; a type is marked as library if its name merely contains google.protobuf. . Not modelled: CEL expressions, incomplete nodes.

### C132 Every comment is highlighted once

Each comment of a file is reported as a comment exactly once, wherever it stands.

*Model and proof.* A permutation between the reported comments with those missed, and those of the tokens with those doubled, by induction over the tree.

*Status: partial.* Theorems: `C132_comments_partial`, `C132_linked_partial`, `C132_no_other`, `C132_end_refuted`, `C132_value_refuted`, `C132_dot_refuted`. Proved up to exact lists of what is missed and doubled, and that nothing else is reported. Findings: comments at the end of a file, at names that are values, inside names and at tokens the parser inserted are not highlighted; comments before a type that starts with a dot, and at the brackets and slashes of field names, are reported twice.

### C133 Renumbering the fields of a message changes nothing else

After the 'renumber fields' refactoring the file consists of the same words, except that the fields of the message are numbered 1, 2, ... in their order, and it has the same comments.

*Model and proof.* The formatter's theorem on declarations, carried over indentation of the lines and placed between the text before and after the message.

*Status: partial.* Theorems: `C133_words_partial`, `C133_comments_partial`, `C133_keyword_refuted`, `C133_tag_refuted`, `C133_end_refuted`. Proved for messages whose literals do not go on over the end of a line and which the formatter writes back (see C110); comments up to an exact list. Findings: a comment between the keyword 'message' and the name is lost; a comment at a field's number is lost; a comment after the closing brace is doubled, since the replaced range ends at the brace but the printed text has the comment.

### C134 Extracting fields moves them and changes nothing else

After the 'extract fields' refactoring the chosen fields stand, in their order, in a new message after the old one; at the place of the first of them stands one field of that message's type; all other words and all comments are as before.

*Model and proof.* As for C133, twice: the rest of the text of the first edit is the second edit.

*Status: partial.* Theorems: `C134_words_partial`, `C134_comments_partial`, `C134_tag_refuted`. Proved as C133. The names in types of moved fields are given by the resolver of names (a parameter that keeps the form of a name). Comments at the numbers of moved fields are lost, and those at their types may be (C144 says what the types mean). Which fields a selection chooses is C59. Not modelled: edits that clients apply differently from the order given.

### C135 Inlining a field changes nothing else

After the 'inline message fields' refactoring the field is replaced, at its place, by the fields of its message type; all other words and comments are as before.

*Model and proof.* As for C133.

*Status: partial.* Theorems: `C135_words_partial`, `C135_comments_partial`, `C135_comment_refuted`. Proved as C133. Finding: the comments of the inlined field are lost, and the new fields have none. Labels and options of the inlined fields are those the code writes (see C27).

### C136 CEL expressions are highlighted where they stand

Each item reported for a CEL expression in an option covers, in the file, exactly the text of the operator, identifier or literal it is reported for, with the type of that; message literals without an expression and an id are left alone, and expressions that cannot be parsed are highlighted as strings.

*Model and proof.* The CEL parser is a parameter whose contract is that elements stand where it says; the lines of the expression are beginnings of the strings.

*Status: partial.* Theorems: `C136_covers_partial`, `C136_others`, `C136_unparsed`, `C136_escape_refuted`, `C136_blank_refuted`, `C136_number_refuted`. Proved for strings without escape sequences, of which none (of several) begins with a blank, and for numbers and strings written as they are printed. Findings: each escape sequence shifts what follows (and backslashes are doubled before parsing, 912); a string that begins with a blank is shifted by the blanks that are trimmed (904); numbers such as 0x20 or 1u are covered in part. Elements inserted by macros of CEL are outside of the parser's contract.

### C137 Highlighting does not stop the server

For every message literal in a file, highlighting its CEL expression ends without a panic.

*Model and proof.* Number of lines of the expression against number of strings, by induction over the fields.

*Status: partial.* Theorems: `C137_no_panic_partial`, `C137_line_break_refuted`, `C137_no_string_refuted`, `C137_no_name_refuted`. Proved for literals whose fields have names and whose expressions are strings without line breaks. Findings: a string that contains an escaped line break before an operator, identifier or literal indexes the strings out of range (936 and others); an expression that is no string (expression: 5) panics at 916 since the empty text does not parse; a field without a name before the expression panics at 885, although the caller checks for it (604).

### C138 Accepting an import or a syntax writes it

With the cursor in the path of an import, the files offered are exactly those that are not imported yet and whose path begins with what is typed; accepting one leaves an import of that path and changes nothing else on the line. The same holds of the versions of a syntax statement.

*Model and proof.* The line as text around its quotation marks; the effect of an edit on the line against a specification of the whole new line.

*Status: partial.* Theorems: `C138_imports_partial`, `C138_fresh_partial`, `C138_versions_partial`, `C138_same_line_refuted`, `C138_single_quotes_refuted`, `C138_lost_refuted`. Proved for paths in double quotes that are the first on their line. Findings: with another import before it on the line nothing is offered, since the first quotation mark of the line is taken for that of the path (424); in single quotes no file is offered, but the keyword public is, within the path; with no path yet and another import after it on the line, accepting a file removes what stands between.

### C139 Keywords are offered where they may stand

The keywords offered in a message or at the top level are exactly those that may begin an element there and that begin with what is typed; accepting one replaces exactly the name under the cursor.

*Model and proof.* A separate table of what may begin an element, by header; membership both ways.

*Status: partial.* Theorems: `C139_elements_partial`, `C139_all_partial`, `C139_missing_refuted`, `C139_group_refuted`, `C139_editions_refuted`, `C139_declarations_partial`, `C139_syntax_refuted`. Proved both ways at the top level of files with a syntax; in messages of proto3 that what is offered may stand there, and for all that it is offered but for four words. Findings: oneof, map and extensions are never offered; group is offered as the beginning of an element; files with an edition are taken for proto2, so required and group are offered in messages and a syntax at the top.

### C140 Values are offered and replace the value

With the cursor at the value of a field, the values offered are exactly those of its type that begin with what is typed, and accepting one leaves it in place of the value; where there is no value, it is inserted at the cursor, and braces are for a message.

*Model and proof.* As for C139.

*Status: partial.* Theorems: `C140_values_partial`, `C140_absent`, `C140_after_refuted`, `C140_list_refuted`. Proved for a cursor within or at the end of the value. Findings: with the cursor after the value the part that is replaced is shifted, so that the beginning of the value stays (tr becomes trtrue); within a list nothing is offered.

### C141 Fields offered in a message literal are those that may still be set

In a message literal a field is offered if and only if it is repeated or not set yet, and accepting it adds to the words of the file that field's name, a colon and the brackets of its value, and nothing else.

*Model and proof.* Words of the text by the lexer of C110; names found by the first match.

*Status: partial.* Theorems: `C141_fields_partial`, `C141_extension_refuted`. Proved for literals that are values of messages. Finding: in the literal of an extension the fields are written like options, name = value, which does not parse, and fields that are set are offered again (176-186).

### C142 Each part of an option's name is completed from the part before it

With the cursor right before a dot of an option's name, or after the last one, the fields offered are exactly those of the message that this part of the name is a field of - the options of the element, or the type of the part before - whose names begin with what is typed, and accepting one leaves it in place of the part.

*Model and proof.* Indices among references and dots, by induction over the name; what is offered for a message is C122.

*Status: partial.* Theorems: `C142_before_partial`, `C142_extension_partial`, `C142_after_partial`, `C142_on_part`, `C142_fields_refuted`, `C142_eaten_refuted`, `C142_middle_refuted`. Proved for parts that do not follow an extension, for the extension that begins a name, and after the last dot. Findings: after an extension in parentheses the parentheses of that extension are taken for those of the part at the cursor (part is nodeChildren[i-3], 318 and 347), so that the fields of a message with extension ranges are not offered and extensions are written over the text to the left; after a dot that is not the last (a. |b) the fields of the type of the next part are offered.

### C143 The type that is completed is replaced

Accepting a type while the type of a field or an extendee is typed leaves it in place of what stands there and changes nothing else, and completion does not panic.

*Model and proof.* The name as written against the name as an identifier; effect of the edit on the line.

*Status: partial.* Theorems: `C143_field_partial`, `C143_extendee_partial`, `C143_panic_refuted`, `C143_blanks_refuted`. Proved for names written without blanks. Findings: completing the extendee of 'extend foo . bar' after its name panics with slice bounds out of range (473), since offsets in the text index the name without blanks; for a field's type written so, the end of the name stays behind.

### C144 Extracted fields keep their types

After the 'extract fields' refactoring the type of each moved field, read at its new place by protobuf's scoping rules, means what it meant before, and its label is the same.

*Model and proof.* The scope that decides is the innermost that declares the first part; exact condition by induction on the scopes between.

*Status: partial.* Theorems: `C144_messages_partial`, `C144_top_level_partial`, `C144_others_partial`, `C144_enum_refuted`, `C144_delimited_refuted`, `C144_hidden_refuted`, `C144_new_name_refuted`, `C144_scalar_refuted`. Exact condition proved for types that are messages (no scope in between declares the first part of the shortened name, and it is not the name of a scalar); unconditional but for scalars for messages that are not nested and types of their package; types of other kinds keep their meaning unless the old message declares the name. Findings: enums declared in the old message are not found from the new one, nor are messages with delimited encoding (refactor.go:551 looks at MessageKind only); the dot in front of full names is dropped, so that a nearer declaration is found; a nested new message may have the name of a type that is used in it, which is then recursive.

### C145 Inlined fields keep their types and labels

After the 'inline message fields' refactoring each new field has the type, read at its place by protobuf's scoping rules, and the label of the field it was made from.

*Model and proof.* As for C144.

*Status: partial.* Theorems: `C145_scalars`, `C145_names_partial`, `C145_hidden_refuted`, `C145_label_refuted`, `C145_map_refuted`, `C145_group_refuted`. Proved for scalars that are neither repeated nor required; exact condition for messages and enums. Findings: repeated and required fields lose their label (730-733); map fields become single fields of the type of their entries, which cannot be referred to; groups become fields of a type called group (746); a type declared in the enclosing message hides the type meant.

### C146 Formatting a formatted file changes nothing

Formatting the text that formatting a file gave, read again, gives the same text.

*Model and proof.* Two runs of the writers are compared, from a source and from what was written; line ends in the first output are the white space of the second source. A simulation carries the number of line ends since the last word; alignment in columns is treated as a choice of blanks.

*Status: partial.* Theorems: `C146_same_lines_partial`, `C146_third_partial`, `C146_settled_partial`, `C146_joined_refuted`, `C146_options_refuted`, `C146_map_refuted`, `C146_start_refuted`. False: four refutations. A field broken over lines is joined by the first formatting and only aligned by the second; the same for the type of a map; a field that began on the last line of the options of the one before it is aligned with it only the first time; several empty lines at the start become one and then none. Proved, for files in the formatter's order without comments and without message or list literals: the second formatting leaves every word on its line; the third changes nothing; and one formatting that moves no word to another line is final. Missing: comments (which can double for ever, C112_doubled_refuted), message and list literals.

### C147 Accepting a type writes a name that means it

The text inserted when an offered type is accepted, read at the cursor by protobuf's scoping rules, means the type that was offered.

*Model and proof.* The text inserted in each of the four cases, and the scope that decides what it means; exact condition by induction on the enclosing scopes.

*Status: partial.* Theorems: `C147_absolute`, `C147_qualified`, `C147_own_package`, `C147_other_package`, `C147_captured_refuted`, `C147_package_captured_refuted`. Unconditional when what was typed begins with a dot. Otherwise proved with the exact condition: no scope between the place of use and the package (for types of the same package), or none at all (for full names), declares something with the first name of what is written. Findings: in a message that declares T, the type T of the package is offered as T, which means the nested one; and a full name whose first package is also declared in an enclosing scope is not found.

### C148 The types offered are those that what is typed can mean

While the type of a field or an extendee is typed, exactly the messages, other than map entries, and enums are offered whose name can be reached by continuing what was typed.

*Model and proof.* Exact characterisation of the offers by the search that is made; completeness for own and full names; witnesses for names that are missing.

*Status: partial.* Theorems: `C148_types`, `C148_shown`, `C148_once`, `C148_extendees_proto2`, `C148_extendees_proto3`, `C148_own_package`, `C148_qualified`, `C148_nested_refuted`, `C148_relative_refuted`, `C148_absolute_refuted`, `C148_no_package_refuted`. The set offered is characterised exactly; types of the file's package by their names in it and all types of packages by their full names are offered. Findings: a nested type is not offered by its short name inside the message that declares it; after 'M.' nothing is offered for types nested in M; a name with a leading dot is not continued behind the package ('.a.' offers nothing); types of files without a package are never offered. In proto3 all nine kinds of options are offered as extendees whatever was typed.

### C149 A refactoring changes the text it was computed for

When an offered refactoring is accepted, its edits are applied to the text they were computed from or not at all, and at most once; resolved in time with the text untouched, they are applied.

*Model and proof.* Transition system of client and server; invariant: an older version or the same text.

*Status: partial.* Theorems: `C149_fitting_partial`, `C149_once`, `C149_effect`, `C149_unversioned_refuted`, `C149_reopened_refuted`, `C149_only_resolved`, `C149_not_resolved_refuted`. Proved for clients that resolve edits, in every history in which no document is opened a second time. Findings: clients without the resolve capability for edits get changes without a version (server.go:869), which go into a text they were not computed for; after a document is closed and opened again the versions start anew and an old edit is accepted; refactorings are offered also to clients that do not resolve actions, where they do nothing.

### C150 Every command is answered

Whatever a client sends with workspace/executeCommand, the server replies with a result or an error and goes on serving.

*Model and proof.* Model of the decoding of arguments (struct and map), exact characterisation of the messages that panic.

*Status: partial.* Theorems: `C150_deadly`, `C150_session`, `C150_refuted`. False; the messages that end the process are characterised exactly. Findings (commands.go:84-210): a command that takes an argument without one; 'protols/generate' with an empty list; any command, also one that does not exist, whose 'uri' is no string, whose 'uris' does not begin with a string or whose 'workspace' lacks a string for its URI or its name. The panic is in a goroutine without recover (handler.go:81), so that the server ends.

### C151 Commands work in the workspace they name

A command does something only in a workspace of the server, the one its argument names; code is generated for exactly the files that are listed.

*Model and proof.* Inversion of the dispatch; members are looked up in a map for the workspace and in a struct for the files.

*Status: partial.* Theorems: `C151_workspace`, `C151_generate_partial`, `C151_split_refuted`, `C151_others_refuted`, `C151_folder`, `C151_document`. Proved: what is not registered does nothing; the workspace is that of 'uri', else of the first of 'uris', else 'workspace' (by URI, whatever the name); the files are those listed if no other member is read as the list. Findings: the workspace is looked up by the exact member name but files are read from a member of any case, and a 'uri' takes precedence, so that files and workspace need not go together; the first file decides for all.

### C152 Highlighting a part of a document agrees with highlighting all of it

Semantic tokens requested for a range are tokens reported for the whole document in the same order, and every one of those with text in the range is among them.

*Model and proof.* Induction on the tree: what is left out with a node has no text in the range.

*Status: partial.* Theorems: `C152_no_other`, `C152_near`, `C152_all_partial`, `C152_end_refuted`, `C152_end`. Proved for ranges that begin and end on a token; the first half for every range. Finding (under the contract that TokenAtOffset gives TokenError = -1 for an offset that is on no token): a range that ends between tokens, for example at the end of a line, gives no tokens at all. What begins exactly at the end of the range is included.

### C153 Hints for a part of a document are those of its references

Hints requested for a range are those, for each reference in brackets to a field of one message, that name the type of the message in front of the closing bracket, of the references with text in the range; each once.

*Model and proof.* Offsets are compared through the tokens they are on, which are in order.

*Status: partial.* Theorems: `C153_hints_partial`, `C153_once`, `C153_end_refuted`, `C153_end`. Proved for ranges that begin and end on a token. Finding, as for C152: a range that ends between tokens, such as one that ends at the end of a line of the screen, gives no hints.

### C154 Editing a document does not stop the server

Whatever a client does with a document that the protocol allows (open, change, save, close), and whatever happens to the file on disk and to the workspace folders, no notification ends the server.

*Model and proof.* Transition system of editor, disk and workspaces on top of the model of DidModifyFiles; invariant: a document that is open has an overlay in its workspace; exact condition for the panic.

*Status: partial.* Theorems: `C154_no_crash_partial`, `C154_crash_iff`, `C154_new_file_refuted`, `C154_folder_refuted`. Proved for documents that are opened in a workspace that knows the file and stay in it while they are open, with the exact condition for a crash. Findings (under the contract that UpdateOverlays gives an error for an edit of a document without an overlay, upon which documents.go:93 panics): opening a file whose path is not known yet is dropped without an overlay (documents.go:69-77), so that once a watcher reports the file as created the next edit, save or close ends the server; and the same for a document that is open while its folder is added to the workspace.

### C155 The server works on the text of the document

While a document is open, the server's text of it and the text its results were compiled from are what is in the editor; after it is closed, they are what is on disk.

*Model and proof.* As for C154, with an invariant on the texts.

*Status: partial.* Theorems: `C155_folders`, `C155_text_partial`, `C155_closed`, `C155_saved`, `C155_told`, `C155_discarded_refuted`, `C155_replaced_refuted`, `C155_ghost_refuted`. Proved for open documents whose file is not deleted meanwhile (and whose Go module stays), with changes that are applied as the protocol says (C06); for closed ones that were saved or whose change the server is told of. Findings: closing without saving compiles nothing (documents.go:79), so that results and diagnostics stay those of the text that was thrown away while positions are read in the file; what is typed between the deletion and the creation of the file on disk is dropped, and the texts differ ever after; closing a document whose file was deleted is dropped too, so that its overlay stays and a new file of that name is taken to have the old text.

### C156 Go to definition leads to the declaration

At a name, a field's type or a method's message, "go to definition" gives the file and range of the name of the declaration it stands for, in the current text of the declaring file; "find references" lists that place first when the declaration is asked for.

*Model and proof.* Composition of the models of the result cache and of the search for descriptors, with one history for each time the lock is taken; result objects carry the identity that nodes are looked up by.

*Status: partial.* Theorems: `C156_definition_partial`, `C156_only_current`, `C156_no_source`, `C156_file`, `C156_file_no_source`, `C156_references`, `C156_recompiled_refuted`, `C156_recompiled`, `C156_syntax_error_refuted`. Proved when the declaring file is not compiled between the steps of the request, for the places C119 and C120 cover. Findings: the lock is given back between finding the descriptor and finding its node (server.go:297-306), and nodes are looked up by the identity of the old result's descriptors, so any compilation of the declaring file in between, even of the same text, makes the request fail; a document with a syntax error that had linked before makes every request for it panic (see C08).

### C157 A reported range selects what it is about

The range reported for a node of a document (definitions, references, symbols, links, edits, diagnostics) selects, with the protocol's lines and UTF-16 columns, exactly the bytes of the node.

*Model and proof.* Composition of the reported positions with the protocol's reading of positions (Documents); exact condition on the text before the node.

*Status: partial.* Theorems: `C157_place`, `C157_range_partial`, `C157_point`, `C157_has_line`, `C157_quoted`, `C157_range_refuted`, `C157_unknown_refuted`. Exact condition proved, under the contract that the parser's columns count bytes: the range is right iff there are only ASCII characters before its ends on their lines (and for any other way of counting, iff it counts UTF-16 units). Findings: after any other character on the line every range is shifted to the right; a report without a position has line and column 4294967295.

### C158 Completion reads what is typed

The part of a name before the cursor and the part after it, which completion filters by and replaces, are the bytes of the name before and after the cursor.

*Model and proof.* As C157, with the mapper's conversion back to offsets.

*Status: partial.* Theorems: `C158_names_partial`, `C158_type_partial`, `C158_names_refuted`, `C158_fails_refuted`, `C158_crash_refuted`. Proved when only ASCII characters come before the name on its line. Findings: byte columns are read back as UTF-16 columns (completion.go:1522, 376, 470), so after another character on the line the wrong text is taken for what is typed or the request fails, and at the start of a field's type the slice index is negative (382), a panic.

### C159 The check reports every problem and fails exactly for errors

For every diagnostic the check (the vet command, the compiler driver of the SDK) prints a message with severity, file, line number and text, and for errors and warnings with the line of the file; it fails exactly if there is an error.

*Model and proof.* Function model of the loop over diagnostics on top of the mapper's offsets (Documents); the messages are read as a terminal shows them.

*Status: partial.* Theorems: `C159_reported_partial`, `C159_all_partial`, `C159_fails`, `C159_succeeds`, `C159_read`, `C159_lines_refuted`, `C159_lines`. Proved for diagnostics within one line that a line feed ends; the exit status for all. Finding: of a diagnostic that spans several lines nothing is printed (driver.go:115), so that the check can fail without a message.

### C160 The check completes whatever the problems

Turning diagnostics into messages neither crashes nor gives up, whatever the texts and the places of the problems.

*Model and proof.* As C159, with exact conditions for the crash and for the failure.

*Status: partial.* Theorems: `C160_crash_iff`, `C160_fails_iff`, `C160_crash_refuted`, `C160_empty_refuted`, `C160_unknown_refuted`. Exact conditions proved for both. Findings: an error or warning in the empty line after the last line feed (as for a missing closing brace at the end of the file) or in an empty file makes the slice driver.go:166 go out of range, a panic; a diagnostic without a position (line 4294967295, C157) makes Compile fail with an error, and no message of any document is printed.

### C161 The check shows the place of a problem

The line shown with an error or warning is the line of the file, with exactly the text of the problem in the colour of its severity.

*Model and proof.* Composition of the reported range of a node (C157) with the columns of the message.

*Status: partial.* Theorems: `C161_highlight_partial`, `C161_head`, `C161_last_line`, `C161_last_line_refuted`. Proved for every text within a line that a line feed ends: byte columns are read as such here, so that other characters do no harm (unlike C157). Finding: of a last line without a line feed the last character is cut off (endPos-1), and a problem that reaches it is not marked, but the whole line.

### C162 Printed declarations keep their comments

Printing a declaration from its descriptor (the Go API that also makes the sources of synthesized files) writes all its detached, leading and trailing comments, each line of them, around the declaration, so that a reader attaches them to the same declaration; it never crashes.

*Model and proof.* Function model of the printing of an element with its comments on top of the writer and the comments (C81, C82); the text is read as blanks and comments by an inductive definition.

*Status: partial.* Theorems: `C162_element_partial`, `C162_block_partial`, `C162_row_partial`, `C162_spaced`, `C162_block_spaced`, `C162_options_partial`, `C162_detached`, `C162_default`, `C162_same_line`, `C162_fails_iff`, `C162_fields`, `C162_owner_refuted`, `C162_option_owner_refuted`. Proved that the declaration is outside of the comments, that every comment is there with all its lines and in its place, the empty line after detached comments and that one-line trailing comments stay on the line; exact condition for the crash (a comment of two line ends within a line). Missing and refuted: with the server's printer a trailing comment of several lines of one field is printed as the leading comment of the next field, and so is every trailing comment of an option in brackets, since the comma is written before it (print.go:1702-1708).

### C163 Printed elements are in a well-defined order

Sources printed from descriptors have the package first, then imports by path, then options, the built-in ones first; fields, extensions and enum values are in the order of their numbers, and everything else is in the order of the source.

*Model and proof.* Function model of the comparison; proof that it is a strict weak order through a key, under the contract that sorting by such an order gives a list in that order.

*Status: partial.* Theorems: `C163_order`, `C163_top`, `C163_numbers`, `C163_declarations`, `C163_kinds_partial`, `C163_source_refuted`, `C163_unlocated_refuted`, `C163_mixed_refuted`. Proved for compiled declarations but for the order of the source. Findings: locations are compared by their paths in the descriptor instead of their positions (print.go:2451-2464, .Path for .Span), so that messages come before enums, enums before services etc., whatever the order in the source; without source information the comparison is no strict weak order (fields are ordered, a nested message is equivalent to each of them), and if only some fields have locations it has cycles, so that the result depends on the sorting algorithm.

### C164 Extensions are printed in their extend statements

Printing a file or message prints every extension in a block for the extend statement that it was declared in, with the comments of that statement.

*Model and proof.* Function model of how extensions are attributed to statements, with the locations that the compiler gives.

*Status: partial.* Theorems: `C164_extendee`, `C164_blocks_partial`, `C164_comments`, `C164_deep`, `C164_unlocated`, `C164_comment_refuted`, `C164_crash`, `C164_crash_refuted`. Proved that blocks do not mix extended messages, and what blocks there are. Findings: paths are taken for spans here too, so that printing a compiled file with a top-level extend statement panics with an index out of range (print.go:695); in a top-level message all blocks get the comments of the first extend statement, and statements for the same message are merged; in nested messages all comments of extend statements are lost.

### C165 An option is printed with the comments of the statement that sets it

Printing a declaration from its descriptor gives each option, of any element and however deep the statement's name leads into a message, the comments of the statement that sets it; other elements are not affected by how options are looked up.

*Model and proof.* Function model of the map and of the paths added to it; the paths of options are specified from descriptor.proto by an inductive definition.

*Status: partial.* Theorems: `C165_exact`, `C165_first`, `C165_later`, `C165_one`, `C165_order`, `C165_elsewhere`, `C165_parts`, `C165_parts_refuted`. Proved which location is used for every option and every value of it. Finding: when several statements set fields of the same message option, the option is printed once, with the comments of the first statement; the comments of the others are lost.

### C166 Offered fields are shown with their type and file

Beside each field that completion offers, its type is shown as it is written in the language, so that fields of different types can be told apart; beside what comes from another package or needs an import, the file is shown, and an import is added exactly if the name is not visible yet.

*Model and proof.* Function model of the texts; the text of a type is specified by recursion over the type.

*Status: partial.* Theorems: `C166_type_partial`, `C166_extension`, `C166_extension_scalar`, `C166_extension_refuted`, `C166_enum`, `C166_enum_refuted`, `C166_map`, `C166_map_refuted`, `C166_file`. Proved for scalar and message types and for files. Findings: a map is shown as repeated map<p.M.XEntry.key, p.M.XEntry.value>, with the names of the entry's fields for their types (completion.go:822); every enum is shown as enum and every extension of a message type as message, without the type's name.

### C167 Requests are refused exactly while the file has a syntax error

Formatting and hints are refused exactly while the file has a syntax error, be it one that the parser recovers from but that cannot be formatted; completion from the current tree, renaming and highlighting exactly while it has one that the parser does not recover from. Problems reported before the last compilation of the file, and problems of other files, do not matter.

*Model and proof.* On the model of the diagnostics (C10-C13): what a file holds after a history, by induction over the history.

*Status: proved.* Theorems: `C167_accepted`, `C167_new`, `C167_refused`, `C167_iff`, `C167_strict`, `C167_error`, `C167_other`. Proved for all histories, as long as no such problem is withdrawn because another file that was cleared named its place (C12). That a request is between compilations is C22/C109; which errors are syntax errors is a parameter (errors.As).

### C168 Completion at a dot in an option's name offers what the names before lead to

After a dot at the end of an option's name, the offered fields are those of the message that the name leads to, and accepting one writes it after the dot. At the end of a name before a dot, the offered fields are those of the message that the names before it lead to which start as it does, and accepting one replaces the name.

*Model and proof.* Model the search for the part at the cursor over lists of parts; describe written names by a separate tree; prove what is offered and what accepting writes.

*Status: partial.* Theorems: `C168_after`, `C168_after_extensions`, `C168_after_accept`, `C168_first`, `C168_first_accept`, `C168_inner_partial`, `C168_inner_accept_partial`, `C168_inner_refuted`, `C168_inner_accept_refuted`. Partial. Proved in full for a dot at the end and for the first name. For later names it holds if the name is no extension and the one before it is no extension or leads to a message without extension ranges. Findings: the reference that is passed on is the one before the name that is completed, so after an extension no field is offered (C168_inner_refuted), and in the place of an extension after a field an accepted offer leaves an unpaired parenthesis (C168_inner_accept_refuted). Whether the tree of the parser is the one in Spec.v is trusted.

### C169 Types are completed for what is typed before the cursor

In the type of a field and in the name of an extended message, completion looks for types by the part of the name before the cursor and replaces the rest. It does not fail wherever the cursor is in the name. Where a type is missing, types are offered with nothing typed.

*Model and proof.* Model the two cases with Go's slicing; describe written names as parts with gaps; prove for names without gaps, and when the slices are out of range.

*Status: partial.* Theorems: `C169_typed_partial`, `C169_field_total`, `C169_extend_fails_iff`, `C169_extend_refuted`, `C169_typed_refuted`, `C169_empty`, `C169_label`. Partial. Proved for names without blanks or comments inside. Findings: the offset in the source is used in the name without blanks (AsIdentifier), so with blanks in it more is taken as typed than is (C169_typed_refuted), and in the name of an extended message the request panics near its end, as the bound is not checked there (completion.go:479; C169_extend_refuted, C169_extend_fails_iff). That AsIdentifier leaves blanks out is trusted (the library is not in the repository).

### C170 Printed options and maps come in the same order every time

Printing a descriptor lists its options in the same order each time, though they are kept in a map without an order: first the options of the language, then extensions, each by name. So do the keys of a map value, by number, text or false before true, and the fields of a message literal, by number.

*Model and proof.* Model Go's insertion sort for short lists and take any sort under its contract for longer ones; prove that the comparisons are strict weak orders and that the sorted list is unique.

*Status: partial.* Theorems: `C170_options_partial`, `C170_keys`, `C170_fields`, `C170_options_refuted`. Partial. Proved for keys and fields, and for options of different names. Finding: an option of the language that is set and is also the first of the options not yet interpreted shares its name with them, and which is printed first is left to chance (C170_options_refuted). Names of options are not empty; the sort of more than twelve elements is any that keeps Go's contract.

### C171 Options are read with the extensions that the file sees

Before a descriptor is printed, the types declared in its file, in the files it imports, and in what these import publicly are registered, at any depth of nesting and no others; of types with the same name, or extensions with the same number of the same message, one is. Options kept as unknown bytes are read exactly if their extension is among these, and then printed.

*Model and proof.* Model the registration over trees of files and messages, the registry by its contract; define by separate relations what a file sees; prove both directions.

*Status: partial.* Theorems: `C171_only_seen`, `C171_all_seen`, `C171_no_conflict`, `C171_exactly`, `C171_reparse`, `C171_printed_refuted`. Partial. Proved for the registration and for reading unknown fields (values that are not malformed). Finding: the options are read in the message that protodesc.ToFileDescriptorProto makes, which is then dropped, and printed from the descriptor, so an option kept as unknown bytes is not printed though its extension is seen (print.go:355; C171_printed_refuted). That ToFileDescriptorProto copies options is the library's contract. Files do not import themselves.

### C172 The path of an element leads to it

Where a single element is printed, its comments are looked up at the path that leads to it in the descriptor of its file; no two elements have the same path.

*Model and proof.* Model the function over chains of parents; define what paths mean by descriptor.proto; prove that each path leads to its element and back.

*Status: proved.* Theorems: `C172_leads`, `C172_one`, `C172_different`, `C172_path`. Proved for all elements that can exist.

### C173 Requests do not race on the tables of paths

Whatever requests run at the same time and however they take turns, the tables that map documents to import paths are not written while another request reads or writes them, at which the Go runtime would end the server.

*Model and proof.* Model requests as programs of lock calls and uses of the tables, and their interleavings; prove that programs whose uses are covered by the lock never race, by an invariant; check each request.

*Status: partial.* Theorems: `C173_guarded`, `C173_requests_partial`, `C173_generate_alone`, `C173_generate_refuted`, `C173_every_generate_refuted`. Partial. Proved for all requests but those that generate code. Finding: generating code reads the tables under the lock of the results (externalapi.go:63-83), while an edit writes them under the lock of the tables only (documents.go:62), so both can happen at once; commands run beside other requests (handler.go:61-64), so the client can bring this about by editing after the command is sent. Waiting writers keeping out readers is left out of the model, which only adds runs; in the runs of the refutation no lock is waited for.

### C174 Results are not replaced while they are read

Whatever requests and compilations of a workspace run at the same time and however they take turns, the results of its files are not replaced while a request goes through them.

*Model and proof.* As C173, for the other lock.

*Status: partial.* Theorems: `C174_requests_partial`, `C174_packages_refuted`. Partial. Proved for all requests but completion in the name of a package, which goes through the results without the lock (completion.go:621). The server runs requests other than commands one at a time (C20), so this concerns users of the Cache API. The hooks of the compiler are taken to run one at a time, as the library has it. That the results have no other uses outside the lock was checked by reading.

### C175 Every value of an option is printed, under its own name

Where a descriptor is printed, an option that repeats is printed once for each of its values, in their order. An option that was not yet interpreted is printed with the name it was written with, different names giving different text, and with the value it is set to; printing fails only if it is set to nothing.

*Model and proof.* Model the functions; define proper parts and settings separately; prove the names injective by induction and the values by cases.

*Status: partial.* Theorems: `C175_values_partial`, `C175_single_partial`, `C175_map_partial`, `C175_values_refuted`, `C175_name`, `C175_set`, `C175_fails_iff`. Partial. Finding: values of enums whose number has no name are left out (print.go:1997-2000; C175_values_refuted), so a descriptor with such values is printed without them. An option that is set to nothing makes the printer panic (print.go:1791; C175_fails_iff). Numbers are taken by their printed text; for what is lost in printing floating-point numbers see C113.

### C176 Values gathered into one array are separated by commas

When options are simplified, the array that the values end in is printed with exactly one comma between any two of them, whatever the values were given as: single values, arrays, empty arrays, with or without a comma at the end.

*Model and proof.* Model the elements of arrays with their commas, the gathering and the printing; define arrays by the grammar; prove by counting commas.

*Status: partial.* Theorems: `C176_new`, `C176_extended_partial`, `C176_extended_refuted`. Partial. Proved for new arrays, for arrays that are empty and for arrays with a comma after their last value. Finding: no comma is added after the last value of an array that is there, so if it has none the values added leave too few commas and the printer's index is out of range (formatter.go:1436, 1456; C176_extended_refuted). Whether the parser ever leaves such an array is up to the library, which is not at hand: its lexer adds delimiters of its own, and test/codeactions_test.go expects this very case to work. Split is taken to return the values and the commas among the elements.

### C177 Comments carried over into generated services stay comments

Whatever the comments of a file, a service or a method contain, each of their lines is a line of comment in the Go code generated for its services; those of a service are not cut off from its interface by an empty line, those of a method stand right before it, and all of them say the same but for white space at the end.

*Model and proof.* Model printing and trimming of comments; define texts by their lines; prove that trimming leaves lines of comments.

*Status: proved.* Theorems: `C177_leading`, `C177_service`, `C177_method`, `C177_leading_says`, `C177_service_says`, `C177_directive_refuted`. The lines are proved to be comments. Finding: the text follows the slashes as it is, so that a comment such as //go:build ignore before the syntax of a file is an instruction to the Go command in the code generated (C177_directive_refuted). Comments.String and P are taken by their documentation; trimming is of ASCII white space. What gofmt does to the text afterwards is not modelled.

<!-- END GENERATED -->

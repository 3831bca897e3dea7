"""Which functions of /repo are modelled, and where. gen.py puts the table into DESIGN.md.
C maps a file to 'Area: function function ...; Area: ...'; '*' is every function not named elsewhere in the entry.
'(locks)' marks functions of which only the lock operations are modelled. Functions in no list are not modelled.
The list of all functions is kept in tools/functions.txt so that the table can be rebuilt without /repo."""
import os, re
C = {
"pkg/format/alg.go": "Format, FormatTree: splitSegmentedFields",
"pkg/format/column_format.go": "FormatTree: columnFormatElements groupableNodeType; Format (columns): columnFormatElements",
"pkg/format/format.go": "Remarks: NewDefaultPrinter; Hover (declarations): PrintNode; Rewrite: NodeInfoOverlay NodeInfo; Links (control flow): Format File FileInPlace; Decode: FileInPlace",
"pkg/format/formatter.go": "Commas: writeArrayLiteral; FormatTree: *; Format (comments, import order): isCommentPrefix unindent computeIndent importSortOrder writeComment; none: StringForOptionName StringForFieldReference GetElements",
"pkg/format/sort.go": "PrintTree, Arrange: SortElements",
"pkg/format/protoprint/internal/registry.go": "Element: RegisterExtensionsForFile RegisterTypesForFile registerTypesForFile registerTypes",
"pkg/format/protoprint/internal/source_info.go": "Settings: CreateSourceInfoMap PopulateSourceInfoMap Get Add PutIfAbsent; Print: Get GetAll Add PutIfAbsent asMapKey",
"pkg/format/protoprint/internal/util.go": "PrintTree: JsonName; Print: GetMaxTag",
"pkg/format/protoprint/message_literal.go": "PrintTree (tokens, not the choice of line breaks): printMessageLiteralToBuffer maybePrintAnyMessageToBuffer printValueLiteralToBuffer printArrayLiteralToBuffer printMapLiteralToBuffer printMessageLiteralToBufferMaybeCompact printArrayLiteralToBufferMaybeCompact printMapLiteralToBufferMaybeCompact printMessageLiteralCompact printMessageLiteral printArrayLiteralCompact printMapLiteralCompact",
"pkg/format/protoprint/print.go": "Raw: valueToOptions valueForOption toUninterpretedOption uninterpretedToOptions printOption; Element: reparseUnknown findElement PrintProto; Steady: optionsAsElementAddrs optionLess sortKeys; Settings: extendOptionLocations printOptionsLong printOptionElementsShort; Arrange: findExtSi isSpanWithin sort Less; Remarks: newLine printBlockElement printElement includeCommentType printLeadingComments printTrailingComments printOptions printOptionElementsShort; PrintTree (without source information): printFile computeExtensions qualifyMessageOptionName qualifyExtensionLiteralName qualifyName typeString printMessage printMessageBody printField shouldEmitLabel labelString isGroup printOneOf printExtensions printExtensionRanges printReservedRanges printReservedNames printEnum printEnumValue printService printMethod printOptions printOptionsLong extractAndPrintOptionsShort printOptionsShort printOptionElementsShort sortKeys printOption extractOptions valueToOptions uninterpretedToOptions optionsAsElementAddrs at; Print: qualifyElementName quotedBytes quotedString printComment inline indent maybeIndent newWriter Write printExtensionRanges printReservedRanges",
"pkg/lsp/cache.go": "Definition: FindTypeDescriptorAtLocation FindDefinitionForTypeDescriptor; Compile: NewCache findResultByPathLocked findResultOrPartialResultByPathLocked findParseResultByPathLocked FindPragmasByPath; PrefixSearch: findAllDescriptorsByPrefixLocked findAllDescriptorsByQualifiedPrefixLocked; Workspaces: TracksURI; Locate: FindTypeDescriptorAtLocation; (locks): FindDescriptorByName FindExtensionByName FindExtensionByNumber FindExtensionsByMessage FindResultByPath FindResultByURI FindResultOrPartialResultByPath FindResultOrPartialResultByURI FindParseResultByPath FindParseResultByURI FindFileByURI FindMessageByName FindMessageByURL FindDefinitionForTypeDescriptor FindAllDescriptorsByPrefix FindAllDescriptorsByQualifiedPrefix RangeAllDescriptors rangeAllDescriptorsLocked FindImportPathsByPrefix",
"pkg/lsp/codeactions.go": "CodeActions: *",
"pkg/lsp/codelens.go": "Outline: ComputeCodeLens",
"pkg/lsp/commands.go": "Commands, Workspaces (reindexing), Locks: ExecuteCommand",
"pkg/lsp/compiler.go": "Compile: *",
"pkg/lsp/completion.go": "Splits: GetCompletions; Dots: GetCompletions deepCompleteOptionNames; Details: fieldTypeDetail fieldCompletion maybeResolveImport; Ranges (as to columns): findPartialNames GetCompletions; Types: completeTypeNames completeExtendeeTypeNames completeTypeNamesFromList; Typing: GetCompletions completeKeywords completeFieldLiteralValues fieldCompletion isProto2 messageKeywordCompletions fileKeywordCompletions completeImports completeSyntaxVersions completeEnumValues; Offers: completeOptionOrExtensionName editAddImport completePackageNames findCompletionScope findExistingOptions deepCompleteOptionNames findPartialNames maybeResolveImport; Completion: GetCompletions completeTypeNamesFromList completeImports completeSyntaxVersions completeEnumValues newExtensionFieldCompletionItem distanceSort affineEntrySort nameDistance relativeFullName",
"pkg/lsp/diagnostics.go": "Fixes: codeActionsForError tagsForError severityForError metadataForError; Diagnostics: toProtocolDiagnostics StreamWorkspaceDiagnostics Add Get getLocked Clear DeleteRelated Flush resetResultId getOrCreateDiagnosticListLocked HandleError HandleWarning GetDiagnosticsForPath ClearDiagnosticsForPath Stream; Publish (as a concurrent system): StreamWorkspaceDiagnostics Stream Flush",
"pkg/lsp/documents.go": "Gate: LatestDocumentContentsWellFormed latestDocumentContentsWellFormedLocked; Documents: ChangedText contentChangeEventsToDiffEdits DidModifyFiles; Sync: ChangedText DidModifyFiles GetMapper; Versions: WaitDocumentVersion; (locks): LatestDocumentContentsWellFormed",
"pkg/lsp/externalapi.go": "Decode: XGetAllMessages; Races (locks): XGetURIPathMappings XListWorkspaceLocalURIs; Sdk: XGetLinkerResults; Vet: XGetAllDiagnostics",
"pkg/lsp/format.go": "Links, Decode: FormatDocument",
"pkg/lsp/generated.go": "Generated: FindGeneratedDefinition GoIdent tryResolvePathToGeneratedImport",
"pkg/lsp/golang.go": "Resolver: HasGoModule ImportFromGoModule ImplicitGoPackagePath; Generated: FindGeneratedFiles SynthesizeFromGoSource ParseGeneratedPreamble",
"pkg/lsp/hover.go": "Hover (the code shown): ComputeHover; Packages (package names): ComputeHover; (locks): ComputeHover",
"pkg/lsp/inlayhints.go": "Links: computeImportHints; Window: computeMessageLiteralHints; (locks): ComputeInlayHints",
"pkg/lsp/links.go": "Links: ComputeDocumentLinks",
"pkg/lsp/packages.go": "Packages: *",
"pkg/lsp/refactor.go": "Commas: calcSimplifyRepeatedOptionsEdits; Apply: enqueue resolve resolveCodeAction; CodeActions: enqueue resolve resolveCodeAction FindRefactorActions RefactorUndeclaredName; Refactor: extractFields inlineMessageFields renumberFields findNewUnusedMessageName findNewUnusedFieldName; Simplify: simplifyRepeatedOptions collectRepeatedOptionRefs calcSimplifyRepeatedOptionsEdits; Rewrite: extractFields inlineMessageFields renumberFields indentTextHanging indentText; Retype: extractFields inlineMessageFields",
"pkg/lsp/references.go": "Definition (the declaration listed): FindReferences; Search: FindReferenceLocationsForTypeDescriptor FindReferencesForTypeDescriptor; Packages: FindReferences",
"pkg/lsp/rename.go": "Rename: *",
"pkg/lsp/resolver.go": "Resolver: NewResolver PathToURI URIToPath UpdateURIPathMappings CheckIncompleteDescriptors FindFileByPath findFileByPathLocked checkWellKnownImportPath checkFS checkGoModule checkGlobalCache LookupGoModule FastLookupGoModule translatePathLocked FindSuffixMatchedPath; Workspaces: IsRealWorkspaceLocalFile; Typing: findImportPathsByPrefix",
"pkg/lsp/pragmas.go": "Compile: Lookup update",
"pkg/lsp/range.go": "Ranges: toRange toPosition positionsToRange pointToRange adjustColumns; Completion: adjustColumn",
"pkg/sources/search.go": "Codegen: SearchDirs",
"pkg/lsp/search.go": "Definition: findDefinition; Locate: deepPathSearch isResolved nextResolved push; Search: findNarrowestSemanticToken findPathIntersectingToken visitEnclosingRange DefaultEnclosingRangeVisitor findPathsEnclosingRange findNodeReferences",
"pkg/lsp/semantic.go": "Cel: inspectCelExpr mktokens_cel inspect; Tokens: computeSemanticTokens mkcomments multilineComment inspectStringLiteralWithEscapeSequences Data; Highlight: inspect mktokens mkcomments inspectCompoundIdent inspectFieldLiteral inspectArrayLiteral; Locate (paths of tokens, as a contract): inspect; Window: ComputeSemanticTokensRange semanticTokensRange; (locks): ComputeSemanticTokens semanticTokensFull",
"pkg/lsp/server.go": "Definition: Definition; Apply: ResolveCodeAction clientSupportsResolveEdits; Workspaces: cacheInitLocked cacheDestroyLocked Initialize CacheForURI CacheForWorkspace shutdown DidChangeWorkspaceFolders Symbol DidChangeConfiguration; Documents, Sync: DidOpen DidClose DidChange DidChangeWatchedFiles DidSave; Events: DidChangeWatchedFiles changeTypeToFileAction DidCreateFiles DidDeleteFiles DidRenameFiles; (locks): Definition",
"pkg/lsp/symbols.go": "Outline: documentSymbolsForFileLocked symbolKind messageSymbols enumSymbols extendSymbols serviceSymbols; Symbols: QueryWorkspaceSymbols toSymbolInformation; (locks): DocumentSymbolsForFile",
"pkg/lsp/versions.go": "Versions: *",
"pkg/lsp/wellknown.go": "Resolver: IsWellKnownPath",
"pkg/lsprpc/handler.go": "Rpc: AsyncHandler; Generate: doGenerate; Commands: Execute; Commands (registration): ServeStream",
"pkg/protols/commands/decode.go": "Decode: *; none: decodeWithNoType decodeWithDescriptor",
"pkg/protols/commands/fmt.go": "Decode: BuildFmtCmd",
"pkg/protols/commands/vet.go": "Vet: BuildVetCmd",
"pkg/util/gofmt_helpers.go": "Overwrite: *",
"pkg/x/protogen/strs/strs.go": "Generated: *",
"pkg/x/symbols/symbols.go": "Symbols: *",
"sdk/codegen/generator.go": "Codegen: Read GenerateCode DefaultGenerators WriteToDisk",
"sdk/codegen/generators/external/generator.go": "Codegen: Generate NewGenerator Name",
"sdk/codegen/generators/golang/grpc/generator.go": "Grpc, Codegen: Generate",
"sdk/codegen/generators/golang/grpc/upstream_gen.go": "Grpc: *; GoDoc: genServiceComments genLeadingComments; none: protocVersion",
"sdk/driver/driver.go": "Sdk: Compile sortAndFilterResults; Vet: Compile",
"sdk/plugin/protogen.go": "Sdk: New",
"sdk/util/transform.go": "Sdk: *",
}
SKIP = ("test/", "magefile.go")
here = os.path.dirname(os.path.abspath(__file__))
def functions():
    path = os.path.join(here, "functions.txt")
    if os.path.isdir("/repo"):
        out = []
        for dp, dn, fn in os.walk("/repo"):
            for x in fn:
                f = os.path.relpath(os.path.join(dp, x), "/repo")
                if not x.endswith(".go") or x.endswith("_test.go") or f.startswith(SKIP): continue
                names = []
                for m in re.finditer(r"^func (?:\([^)]*\) )?(\w+)", open(os.path.join(dp, x)).read(), re.M):
                    if m.group(1) not in names: names.append(m.group(1))
                out.append(f + ": " + " ".join(names))
        open(path, "w").write("\n".join(sorted(out)) + "\n")
    r = {}
    for l in open(path):
        f, _, n = l.rstrip("\n").partition(":")
        r[f] = n.split()
    return r
def table():
    F = functions(); rows = []
    assert set(C) <= set(F), set(C) - set(F)
    for f in sorted(F):
        used = set(); parts = []; star = None
        for e in filter(None, C.get(f, "").split("; ")):
            area, _, names = e.partition(": "); names = names.split()
            if names == ["*"]: star = area; parts.append(None); continue
            assert set(names) <= set(F[f]), (f, set(names) - set(F[f]))
            used |= set(names)
            parts.append((area, names))
        none = []
        done = []
        for q in parts:
            if q is None:
                # functions named under 'none' are excluded, others named elsewhere are modelled here too
                excl = {n for z in parts if z and z[0] == "none" for n in z[1]}
                names = [n for n in F[f] if n not in excl]; used |= set(names)
                done.append(f"{star}: all" + (" but those below" if excl else ""))
            elif q[0] == "none": none += q[1]
            else: done.append(f"{q[0]}: " + ", ".join(q[1]))
        none += [n for n in F[f] if n not in used and n not in none and n != "_"]
        if len(none) > 45: none = none[:45] + ["…"]
        rows.append(f"* `{f}`\n" + "".join(f"  * {d}\n" for d in done) + (f"  * not modelled: {', '.join(none)}\n" if none else ""))
    return "".join(rows)
if __name__ == "__main__": print(table())

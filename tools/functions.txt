cmd/protols/main.go: main
pkg/format/alg.go: splitSegmentedFields
pkg/format/ast.go: DumpAST maybe maybeValue Visit
pkg/format/column_format.go: groupableNodeType columnFormatElements
pkg/format/format.go: Format File FileInPlace PrintDescriptor NewDefaultPrinter PrintAndFormatFileDescriptor PrintNode NodeInfoOverlay NodeInfo
pkg/format/formatter.go: saveState mergeState NewFormatter Run P Space In Out Indent WriteString SetPreviousNode writeFile writeFileHeader writeFileTypes writeSyntax writeEdition writePackage writeImport GetElements writeFileOptions writeFileOption writeOption writeLastCompactOption writeOptionPrefix writeOptionName writeMessage writeMessageLiteral writeMessageLiteralForArray messageLiteralShouldBeExpanded arrayLiteralShouldBeExpanded maybeWriteCompactMessageLiteral messageLiteralHasNestedMessageOrArray messageLiteralHasNestedArray arrayLiteralHasNestedMessageOrArray writeMessageLiteralElements writeMessageField writeMessageFieldWithSeparator writeMessageFieldPrefix writeEnum writeEnumValue writeField writeMapField writeMapType writeFieldReference writeExtend writeService writeRPC writeRPCType writeOneOf writeGroup writeExtensionRange writeReserved writeRange compactOptionsShouldBeExpanded writeCompactOptions hasInteriorComments writeArrayLiteral writeCompositeValueForArrayLiteral writeCompositeTypeBody writeCompositeValueBody writeBody writeOpenBracePrefix writeOpenBracePrefixInline writeOpenBracePrefixForArray writeCompoundIdent writeCompountIdentForFieldName writeCompoundStringLiteral writeCompoundStringLiteralIndent writeCompoundStringLiteralIndentEndInline writeCompoundStringLiteralNoIndentEndInline writeCompoundStringLiteralForArray writeFloatLiteral writeSignedFloatLiteral writeSignedFloatLiteralForArray writeSpecialFloatLiteral writeStringLiteral writeUintLiteral writeNegativeIntLiteral writeNegativeIntLiteralForArray writeIdent writeKeyword writeRune writeNode writeStart writeStartMaybeCompact writeInline writeBodyEnd writeLineElement writeBodyEndInline writeLineEnd writeMultilineComments writeMultilineCommentsMaybeCompact writeInlineComments writeTrailingEndComments writeComment isCommentPrefix unindent computeIndent leadingCommentsContainBlankLine importHasComment nodeHasComment importSortOrder StringForOptionName StringForFieldReference isOpenBrace newlineCount
pkg/format/protoprint/internal/registry.go: RegisterExtensionsForFile RegisterTypesForFile registerTypesForFile registerTypes
pkg/format/protoprint/internal/source_info.go: Get GetAll Add PutIfAbsent asMapKey CreateSourceInfoMap PopulateSourceInfoMap recomputeSourceInfo RecomputeSourceInfo
pkg/format/protoprint/internal/util.go: JsonName InitCap CreatePrefixList GetMaxTag
pkg/format/protoprint/message_literal.go: printMessageLiteralCompact printMessageLiteral printMessageLiteralToBuffer printMessageLiteralToBufferMaybeCompact maybePrintAnyMessageToBuffer printValueLiteralToBuffer maybeNewline printArrayLiteralToBufferMaybeCompact printArrayLiteralCompact printArrayLiteralToBuffer printMapLiteralToBufferMaybeCompact printMapLiteralCompact printMapLiteralToBuffer Len Get Set Append AppendMutable Truncate NewElement IsValid
pkg/format/protoprint/print.go: collect PrintProtoFiles PrintProtosToFileSystem PrintProtoFile PrintProtoToString PrintProto findElement getMessageIndex getFieldIndex getOneOfIndex getEnumIndex getEnumValueIndex getServiceIndex getMethodIndex newLine reparseUnknown printFile findExtSi isSpanWithin computeExtensions sort qualifyMessageOptionName qualifyExtensionLiteralName qualifyName qualifyElementName typeString printMessage printMessageBody printField shouldEmitLabel labelString isGroup printOneOf printExtensions printExtensionRanges printReservedRanges printReservedNames printEnum printEnumValue printService printMethod printOptionsLong extractAndPrintOptionsShort printOptionsShort printOptionElementsShort printOptions inline sortKeys printOption extendOptionLocations extractOptions valueToOptions valueForOption toUninterpretedOption uninterpretedToOptions optionsAsElementAddrs quotedBytes quotedString Len Less Swap at optionLess printBlockElement printElement printfElementString printElementString includeCommentType printLeadingComments printTrailingComments printComment indent maybeIndent newWriter Write
pkg/format/protoprint/sort.go: asElement Kind Name Number NumberRange Extendee IsCustomOption
pkg/format/sort.go: SortElements
pkg/lsp/cache.go: apply NewCache LoadFiles FindDescriptorByName FindExtensionByName FindExtensionByNumber FindExtensionsByMessage FindResultByPath FindResultByURI FindResultOrPartialResultByPath FindResultOrPartialResultByURI FindParseResultByPath FindParseResultByURI findResultByPathLocked findResultOrPartialResultByPathLocked findParseResultByPathLocked FindFileByURI TracksURI FindMessageByName FindMessageByURL FindTypeDescriptorAtLocation FindDefinitionForTypeDescriptor DidChangeConfiguration All Range Len FindAllDescriptorsByPrefix findAllDescriptorsByPrefixLocked FindAllDescriptorsByQualifiedPrefix findAllDescriptorsByQualifiedPrefixLocked RangeAllDescriptors rangeAllDescriptorsLocked FindImportPathsByPrefix FindPragmasByPath
pkg/lsp/codeactions.go: GetCodeActions toProtocolCodeActions aggregateOrganizeImportsActions requestedActionKinds
pkg/lsp/codelens.go: ComputeCodeLens
pkg/lsp/commands.go: NewSelectRangeCommand ExecuteCommand
pkg/lsp/compiler.go: preInvalidateHook postInvalidateHook preCompile postCompile Compile compileLocked
pkg/lsp/completion.go: GetCompletions completeOptionOrExtensionName editAddImport completePackageNames completeFieldLiteralValues init fieldCompletion fieldTypeDetail findCompletionScope findExistingOptions deepCompleteOptionNames completeKeywords completeTypeNames completeExtendeeTypeNames completeTypeNamesFromList completeImports completeSyntaxVersions completeEnumValues newMapFieldCompletionItem newMessageFieldCompletionItem newExtensionFieldCompletionItem newDefaultPseudoOptionCompletionItem newJsonNamePseudoOptionCompletionItem newBuiltinScalarOptionCompletionItem newNonMessageFieldCompletionItem newNonMessageRepeatedOptionCompletionItem isProto2 messageKeywordCompletions fileKeywordCompletions syntaxSnippets distanceSort affineEntrySort nameDistance relativeFullName findPartialNames maybeResolveImport
pkg/lsp/diagnostics.go: toProtocolDiagnostics StreamWorkspaceDiagnostics NewDiagnosticHandler Add Get getLocked Clear DeleteRelated Flush resetResultId tagsForError severityForError codeActionsForError metadataForError werrorCategoryForError relatedInformationForError getOrCreateDiagnosticListLocked HandleError HandleWarning GetDiagnosticsForPath FullDiagnosticSnapshot ClearDiagnosticsForPath Stream
pkg/lsp/documents.go: ChangedText contentChangeEventsToDiffEdits DidModifyFiles LatestDocumentContentsWellFormed latestDocumentContentsWellFormedLocked WaitDocumentVersion GetMapper GetSyntheticFileContents
pkg/lsp/externalapi.go: XGetAllDiagnostics XGetLinkerResults XGetResolver XGetMapper XGetURIPathMappings XListWorkspaceLocalURIs XGetAllMessages
pkg/lsp/format.go: FormatDocument
pkg/lsp/generated.go: FindGeneratedDefinition nodeLocation lookupObjDecl GoIdent tryResolvePathToGeneratedImport
pkg/lsp/golang.go: NewGoLanguageDriver RefreshModules HasGoModule Position FindGeneratedFiles ImportFromGoModule ImplicitGoPackagePath SynthesizeFromGoSource DecodeRawFileDescriptor ParseGeneratedPreamble
pkg/lsp/hover.go: ComputeHover makeTooltip
pkg/lsp/inlayhints.go: ComputeInlayHints computeMessageLiteralHints computeImportHints buildMessageLiteralHints
pkg/lsp/links.go: ComputeDocumentLinks
pkg/lsp/log.go: SetLevel Level ParseLogLevel
pkg/lsp/packages.go: TryFindPackageReferences FindPackageNameRefs tryHoverPackageNode
pkg/lsp/pragmas.go: init Lookup update
pkg/lsp/range.go: toRange toPosition positionsToRange pointToRange adjustColumns adjustColumn
pkg/lsp/refactor.go: enqueue resolve resolveCodeAction FindRefactorActions RefactorUndeclaredName simplifyRepeatedOptions collectRepeatedOptionRefs newFieldVisitor extractFields inlineMessageFields renumberFields findNewUnusedMessageName findNewUnusedFieldName indentTextHanging indentText calcSimplifyRepeatedOptionsEdits calcInsertIndex formatNodeInsertEdit formatNodeRemovalEdits buildSimplifyOptionsASTChanges unwrapIndex
pkg/lsp/references.go: FindReferenceLocationsForTypeDescriptor FindReferencesForTypeDescriptor FindReferences
pkg/lsp/rename.go: PrepareRename canRename Rename
pkg/lsp/resolver.go: NewResolver OpenFileFromDisk PathToURI URIToPath SyntheticFileContents UpdateURIPathMappings CheckIncompleteDescriptors FindFileByPath findFileByPathLocked checkWellKnownImportPath checkFS checkGoModule checkGlobalCache SyntheticFiles LookupGoModule IsRealWorkspaceLocalFile PreloadWellKnownPaths FindGeneratedFiles findImportPathsByPrefix FastLookupGoModule tryReverseLookupLocked translatePathLocked FindSuffixMatchedPath
pkg/lsp/search.go: deepPathSearch isResolved nextResolved push findNarrowestSemanticToken findPathIntersectingToken visitEnclosingRange DefaultEnclosingRangeVisitor findPathsEnclosingRange findDefinition findNodeReferences
pkg/lsp/semantic.go: AST ComputeSemanticTokens ComputeSemanticTokensRange semanticTokensFull semanticTokensRange computeSemanticTokens mktokens mktokens_cel mkcomments multilineComment init inspect inspectCompoundIdent inspectStringLiteralWithEscapeSequences inspectFieldLiteral inspectArrayLiteral inspectCelExpr getAst Data
pkg/lsp/server.go: apply WithUnknownCommandHandler NewServer cacheInitLocked cacheDestroyLocked Initialize CacheForURI CacheForWorkspace Completion Initialized Definition Hover DidOpen DidClose DidChange DidChangeWatchedFiles changeTypeToFileAction DidCreateFiles DidDeleteFiles DidRenameFiles DidSave SemanticTokensFull SemanticTokensFullDelta SemanticTokensRange SemanticTokensRefresh DocumentSymbol Diagnostic DiagnosticWorkspace DocumentColor DocumentHighlight DocumentLink Formatting InlayHint References Shutdown Exit shutdown DidChangeWorkspaceFolders CodeAction changesToDocumentChanges clientSupportsResolveEdits PrepareRename Rename CodeLens Symbol ResolveCodeAction DidChangeConfiguration notImplemented Declaration SignatureHelp Subtypes Supertypes TypeDefinition WillCreateFiles WillDeleteFiles WillRenameFiles WillSave WillSaveWaitUntil WorkDoneProgressCancel CodeLensRefresh CodeLensResolve ColorPresentation CompletionResolve Resolve ResolveCodeLens ResolveCompletionItem ResolveDocumentLink ResolveWorkspaceSymbol SelectionRange SetTrace OnTypeFormatting OutgoingCalls PrepareCallHierarchy PrepareTypeHierarchy Progress RangeFormatting InlayHintRefresh InlineValue InlineValueRefresh LinkedEditingRange Moniker Implementation IncomingCalls DidChangeNotebookDocument DidCloseNotebookDocument DidOpenNotebookDocument DidSaveNotebookDocument FoldingRange InlineCompletion RangesFormatting DiagnosticRefresh
pkg/lsp/settings.go: GetExtensionTypes GetImports
pkg/lsp/symbols.go: DocumentSymbolsForFile documentSymbolsForFileLocked QueryWorkspaceSymbols toSymbolInformation symbolKind messageSymbols enumSymbols extendSymbols serviceSymbols
pkg/lsp/tokentype_string.go: _ String
pkg/lsp/versions.go: newDocumentVersionQueue Get Wait Update
pkg/lsp/wellknown.go: IsWellKnownPath
pkg/lsprpc/handler.go: NewStreamServer ServeStream AsyncHandler Execute doGenerate
pkg/protols/commands/decode.go: BuildDecodeCmd decodeWithNoType decodeWithType chooseAndDecode decodeWithDescriptor looksLikeBase64 readMaybeBase64AndTrim
pkg/protols/commands/fmt.go: BuildFmtCmd
pkg/protols/commands/serve.go: BuildServeCmd
pkg/protols/commands/vet.go: BuildVetCmd
pkg/protols/root.go: BuildRootCmd Execute
pkg/sources/search.go: SearchDirs
pkg/util/gofmt_helpers.go: OverwriteFile backupFile
pkg/version/version.go: FriendlyVersion
pkg/x/protogen/genid/genid.go: 
pkg/x/protogen/strs/strs.go: GoSanitized GoCamelCase isASCIILower isASCIIUpper isASCIIDigit
pkg/x/symbols/symbols.go: NewSymbolStore Store TooLow Results ParseQuery SmartCase MatchExact Match NewFuzzyMatcher
sdk/codegen/generator.go: Read WriteToDisk apply WithGenerateStrategy WithFixInvalidGoPackages GenerateCode DefaultGenerators GenerateWorkspace
sdk/codegen/generators/external/generator.go: NewGenerator Name Generate
sdk/codegen/generators/golang/generator.go: Name Generate
sdk/codegen/generators/golang/grpc/generator.go: Name Generate
sdk/codegen/generators/golang/grpc/grpc.pb.go: Reset String ProtoMessage ProtoReflect Descriptor GetRequireUnimplemented GetUseGenericStreams file_github_com_kralicky_protols_sdk_codegen_generators_golang_grpc_grpc_proto_rawDescGZIP init file_github_com_kralicky_protols_sdk_codegen_generators_golang_grpc_grpc_proto_init
sdk/codegen/generators/golang/grpc/upstream_gen.go: formatFullMethodSymbol genFullMethods generateClientStruct generateNewClientDefinitions generateUnimplementedServerType generateServerFunctions formatHandlerFuncName generateFile protocVersion generateFileContent genServiceComments genService clientSignature clientStreamInterface genClientMethod serverSignature genServiceDesc serverStreamInterface genServerMethod genLeadingComments unexport
sdk/driver/driver.go: apply WithRenameStrategy NewDriver Compile sortAndFilterResults
sdk/plugin/protogen.go: New
sdk/util/transform.go: TopologicalSort topologicalSort RestoreDescriptorNames

-Q theories Verif
theories/Bits.v
theories/BitsFacts.v
theories/Stream.v
theories/Spec.v
theories/StreamFacts.v
theories/Scalars.v
theories/FixedFacts.v
theories/VarFacts.v
theories/PrefixFacts.v
theories/ScalarFacts.v
theories/ScalarTable.v
theories/ScalarThms.v
theories/PropScalars.v
theories/BitIO.v
theories/BitIOFacts.v
theories/Marshal.v
theories/StreamSpec.v
theories/StreamThms.v
theories/PropStreams.v
theories/Float16.v
theories/Float16Convert.v
theories/Float16Facts.v
theories/Traits.v
theories/Delta.v
theories/DeltaSpec.v
theories/DeltaFacts.v
theories/TraitSpec.v
theories/TraitFacts.v
theories/SizeFacts.v
theories/TraitCache.v
theories/TraitThms.v
theories/PropDelta.v
theories/PosSpec.v
theories/PosFacts.v
theories/Array.v
theories/ArraySpec.v
theories/ArrayFacts.v
theories/HonestSpec.v
theories/HonestFacts.v
theories/ArrayThms.v
theories/PropArrays.v
theories/Schema.v
theories/SchemaSpec.v
theories/SchemaFacts.v
theories/SchemaPlain.v
theories/SchemaPacked.v
theories/SchemaObjects.v
theories/SchemaThms.v
theories/SchemaSize.v
theories/SchemaExample.v
theories/PropSchema.v
theories/AstExpr.v
theories/AstExprSpec.v
theories/AstFacts.v
theories/AstThms.v
theories/AstTypes.v
theories/AstTypesSpec.v
theories/AstTypesThms.v
theories/PropAst.v
theories/Packages.v
theories/PackagesSpec.v
theories/PackagesFacts.v
theories/PropPackages.v
theories/Files.v
theories/FilesSpec.v
theories/FilesFacts.v
theories/EnumText.v
theories/EnumTextSpec.v
theories/EnumTextFacts.v
theories/PropFiles.v
theories/Templates.v
theories/TemplatesSpec.v
theories/TemplatesFacts.v
theories/PropTemplates.v
theories/GoSyntax.v
theories/GoSyntaxFacts.v
theories/ExprPrint.v
theories/ExprPrintSpec.v
theories/ExprPrintFacts.v
theories/PropExpr.v
theories/Literals.v
theories/LiteralsSpec.v
theories/LiteralsFacts.v
theories/PropLiterals.v
theories/CodecChoice.v
theories/CodecChoiceSpec.v
theories/CodecChoiceFacts.v
theories/PropCodec.v
theories/GoTypes.v
theories/GoTypesSpec.v
theories/GoTypesFacts.v
theories/PropGoTypes.v
theories/DecodeSpec.v
theories/DecodeFacts.v
theories/DecodeRange.v
theories/DecodeTotal.v
theories/DecodeFuel.v
theories/DecodeValid.v
theories/DecodeThms.v
theories/PropDecode.v
theories/WireSpec.v
theories/WireScalars.v
theories/WireColumns.v
theories/WireFacts.v
theories/WirePacked.v
theories/PropWire.v
theories/FloatSpec.v
theories/Float16Round.v
theories/PropFloat.v
theories/Members.v
theories/MembersSpec.v
theories/MembersFacts.v
theories/PropMembers.v
theories/Visitor.v
theories/VisitorSpec.v
theories/VisitorFacts.v
theories/VisitorWords.v
theories/VisitorWordsFacts.v
theories/PropVisitor.v
theories/PackedSize.v
theories/PackedSizeSpec.v
theories/PackedSizeFacts.v
theories/PropPackedSize.v
theories/Generate.v
theories/GenerateSpec.v
theories/GenerateFacts.v
theories/PropGenerate.v
theories/Defaults.v
theories/DefaultsSpec.v
theories/DefaultsFacts.v
theories/PropDefaults.v
theories/Resolve.v
theories/ResolveSpec.v
theories/ResolveFacts.v
theories/PropResolve.v
theories/Capitalize.v
theories/CapitalizeSpec.v
theories/CapitalizeFacts.v
theories/PropCapitalize.v
theories/Names.v
theories/NamesSpec.v
theories/NamesFacts.v
theories/PropNames.v
theories/Instances.v
theories/InstancesSpec.v
theories/InstancesFacts.v
theories/PropInstances.v
theories/TypeArgs.v
theories/TypeArgsSpec.v
theories/TypeArgsFacts.v
theories/PropTypeArgs.v
theories/ArrayObjects.v
theories/ArrayObjectsSpec.v
theories/ArrayObjectsFacts.v
theories/PropArrayObjects.v
theories/Lexer.v
theories/LexerSpec.v
theories/LexerFacts.v
theories/LexerWordFacts.v
theories/LexerLiteralFacts.v
theories/PropLexer.v
theories/Parser.v
theories/ParserSpec.v
theories/ParserFacts.v
theories/ParserTextFacts.v
theories/PropParser.v
theories/FileParser.v
theories/FileParserSpec.v
theories/FileParserFacts.v
theories/FileParserDeclFacts.v
theories/FileParserSound.v
theories/PropFileParser.v
theories/SchemaInto.v
theories/SchemaIntoSpec.v
theories/SchemaIntoFacts.v
theories/SchemaIntoWrite.v
theories/SchemaIntoHistory.v
theories/PropSchemaInto.v
theories/ReencodeSpec.v
theories/ReencodeScalars.v
theories/ReencodeFacts.v
theories/ReencodeFollow.v
theories/ReencodeExact.v
theories/ReencodeThms.v
theories/PropReencode.v
theories/Compile.v
theories/CompileSpec.v
theories/CompileFacts.v
theories/CompileThms.v
theories/PropCompile.v
theories/Refine.v
theories/RefineSize.v
theories/ExprCode.v
theories/ExprCodeSpec.v
theories/ExprValue.v
theories/ExprCodeFacts.v
theories/ExprCodeThms.v
theories/PropExprCode.v
theories/PropCodeSize.v
theories/PropEnumCode.v
theories/PropItemCode.v
theories/Requests.v
theories/RequestsSpec.v
theories/RequestsFacts.v
theories/PropRequests.v
theories/PropFunctions.v

-Q theories Verif

theories/Base.v
theories/Token.v
theories/TokenFacts.v
theories/Scanner.v
theories/SpecScanner.v
theories/ScannerFacts.v
theories/ScannerCrlf.v
theories/ScannerMore.v
theories/ScannerTags.v
theories/ScannerEof.v
theories/Respell.v
theories/Prop_Scanner.v
theories/Node.v
theories/DocBlock.v
theories/Parser.v
theories/ScannerHere.v
theories/DocFacts.v
theories/ParserSpec.v
theories/ParserBase.v
theories/ParserInv.v
theories/ParserAst.v
theories/NodeFacts.v
theories/Prop_Parser.v
theories/ParserFuel.v
theories/ParserHang.v
theories/SpecCalm.v
theories/ParserTerm.v
theories/ParserTermG.v
theories/Prop_Termination.v
theories/SpecExpr.v
theories/PrattFacts.v
theories/SpecGrammar.v
theories/GrammarBase.v
theories/GrammarNames.v
theories/GrammarExpr.v
theories/GrammarClass.v
theories/GrammarPratt.v
theories/GrammarUse.v
theories/GrammarStmt.v
theories/GrammarFile.v
theories/Prop_Grammar.v
theories/Prop_Expr.v
theories/Assoc.v
theories/Arena.v
theories/Symbol.v
theories/EnvMonad.v
theories/Workspace.v
theories/Resolver.v
theories/Backend.v
theories/Formatter.v
theories/SpecFormat.v
theories/FormatFacts.v
theories/FormatTree.v
theories/FormatParse.v
theories/Prop_Format.v
theories/AssocFacts.v
theories/ArenaFacts.v
theories/EnvFacts.v
theories/SpecNames.v
theories/ResolverFacts.v
theories/WorkspaceFacts.v
theories/WorkspaceSim.v
theories/BackendFacts.v
theories/SpecServer.v
theories/ServerInv.v
theories/IndexFacts.v
theories/Prop_Symbols.v
theories/Prop_Server.v
theories/Prop_Edits.v
theories/Prop_Watched.v
theories/Prop_References.v
theories/Prop_Names.v
theories/Prop_Scopes.v
theories/Prop_Members.v
theories/Prop_Imports.v
theories/Prop_Overrides.v
theories/Prop_Access.v
theories/Prop_Highlight.v
theories/Suggester.v
theories/Prop_Suggest.v
theories/Prop_Insert.v
theories/Implementation.v
theories/Prop_Implementation.v
theories/Startup.v
theories/Prop_Startup.v
theories/Files.v
theories/Prop_Files.v
theories/Prop_Definition.v
theories/Prop_Outline.v
theories/Prop_Declarations.v
theories/Prop_Find.v
theories/Prop_Locals.v
theories/Prop_Types.v
theories/Prop_Offered.v
theories/Prop_Complete.v
theories/Prop_NoCrash.v
theories/ParserKinds.v
theories/Prop_Sources.v
theories/Prop_Trees.v
theories/Prop_Inherit.v
theories/Prop_Chains.v
theories/Prop_DocComments.v
theories/Prop_Spelling.v
theories/Prop_OfferedAbove.v
theories/Publish.v
theories/Prop_Publish.v
theories/Prop_Questions.v
theories/Concurrent.v
theories/Prop_Concurrent.v
theories/Prop_Gone.v
theories/Prop_Places.v
theories/Prop_Spans.v

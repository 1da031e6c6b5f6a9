-Q theories Verif
theories/TextModel.v
theories/TextSpec.v
theories/TextProofs.v
theories/TextEditProofs.v
theories/TextProps.v
theories/Kinds.v
theories/KindFacts.v
theories/ParserSyntax.v
theories/GrammarSpec.v
theories/GrammarData.v
theories/UngramData.v
theories/ParserModel.v
theories/ParserSpec.v
theories/ParserTree.v
theories/ParserTerm.v
theories/ParserChecks.v
theories/ParserBuild.v
theories/ParserLL.v
theories/GrammarFacts.v
theories/ParserComplete.v
theories/ParserSound.v
theories/ParserOutcome.v
theories/ParserProps.v
theories/Utf8Model.v
theories/FrameModel.v
theories/FrameSpec.v
theories/FrameProofs.v
theories/FrameProps.v
theories/JsonModel.v
theories/ServerModel.v
theories/ServerSpec.v
theories/ServerProofs.v
theories/ServerLife.v
theories/ServerProps.v
theories/SettingsModel.v
theories/SettingsProps.v
theories/ReaderModel.v
theories/ReaderSpec.v
theories/ReaderProofs.v
theories/ReaderProps.v
theories/NTriplesModel.v
theories/NTriplesProps.v
theories/SemTokModel.v
theories/SemTokProps.v
theories/LexerRegex.v
theories/LexerData.v
theories/LexerModel.v
theories/LexerSpec.v
theories/LexerProofs.v
theories/LexerProps.v
theories/FormatData.v
theories/FormatModel.v
theories/FormatText.v
theories/FormatSpec.v
theories/FormatChain.v
theories/FormatTree.v
theories/FormatPieces.v
theories/FormatWeave.v
theories/FormatParse.v
theories/FormatComments.v
theories/FormatArrange.v
theories/FormatWoven.v
theories/FormatMerged.v
theories/FormatKept.v
theories/FormatLex.v
theories/FormatProps.v
theories/TreeModel.v
theories/VarModel.v
theories/VarUnion.v
theories/VarSpec.v
theories/VarRegions.v
theories/VarOcc.v
theories/TreePlace.v
theories/TreeShape.v
theories/VarDoc.v
theories/TreeKids.v
theories/LexRename.v
theories/VarProps.v
theories/TreeRename.v
theories/RenameDoc.v
theories/RenameScope.v
theories/RenameProps.v
theories/DiagModel.v
theories/TreeItems.v
theories/DiagSpec.v
theories/AstFacts.v
theories/DiagFacts.v
theories/DiagGroup.v
theories/DiagScope.v
theories/DiagRest.v
theories/DiagProps.v
theories/LexLayout.v
theories/OnTypeModel.v
theories/OnTypeProofs.v
theories/OnTypeProps.v
theories/FoldProps.v
theories/LayoutProps.v
theories/ParseTreeModel.v
theories/ParseTreeProps.v
theories/JumpModel.v
theories/JumpProps.v
theories/LexInsert.v
theories/PrologueRun.v
theories/PrologueSwap.v
theories/QuickFixModel.v
theories/QuickFixFacts.v
theories/CoverFacts.v
theories/RemoveFacts.v
theories/DeclCount.v
theories/Replant.v
theories/LexMiddle.v
theories/QuickFixProps.v
theories/RemoveProps.v
theories/CommentProps.v
theories/GrammarCheck.v
theories/ShortenFacts.v
theories/ShortenProps.v
theories/SelectModel.v
theories/SelectFacts.v
theories/SelectProps.v
theories/AutoFacts.v
theories/AutoProps.v
theories/ResultModel.v
theories/ResultFacts.v
theories/ResultProps.v
theories/AggregateProps.v
theories/FilterModel.v
theories/FilterProps.v
theories/LabelModel.v
theories/LabelProps.v
theories/Audit.v

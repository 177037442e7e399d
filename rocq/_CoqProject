-Q theories Verif
theories/Base.v
theories/BaseFacts.v
theories/StringsModel.v
theories/StringsFacts.v
theories/PropStrings.v
theories/DecimalModel.v
theories/DecimalFacts.v
theories/PropDecimal.v
theories/EscapeModel.v
theories/EscapeFacts.v
theories/PropEscape.v
theories/TypeModel.v
theories/TypeFacts.v
theories/TypeCaseFacts.v
theories/TypeTextFacts.v
theories/MatchFacts.v
theories/SignatureFacts.v
theories/TypeProtoFacts.v
theories/PropTypes.v
theories/FunctionModel.v
theories/FunctionFacts.v
theories/LoadFacts.v
theories/PropFunctions.v
theories/SymbolModel.v
theories/SymbolFacts.v
theories/SymbolMoreFacts.v
theories/PropSymbols.v
theories/ProtoModel.v
theories/NormalizerModel.v
theories/NormalizerFacts.v
theories/NormalizerTreeFacts.v
theories/NormalizerRenFacts.v
theories/NormalizerPlanFacts.v
theories/NormalizerMainFacts.v
theories/PropNormalizer.v
theories/EnumModel.v
theories/EnumFacts.v
theories/PropEnum.v
theories/IoModel.v
theories/IoFacts.v
theories/PropIo.v
theories/FieldModel.v
theories/FieldFacts.v
theories/PropFields.v
theories/DeclModel.v
theories/DeclFacts.v
theories/PropDecl.v
theories/PipeModel.v
theories/PipeFacts.v
theories/PropPipes.v
theories/TreeModel.v
theories/TreeFacts.v
theories/PropTree.v
theories/LexModel.v
theories/LexFacts.v
theories/NameModel.v
theories/NameFacts.v
theories/PropLex.v
theories/CalendarModel.v
theories/TimeModel.v
theories/CalendarFacts.v
theories/TimeFacts.v
theories/PropCalendar.v
theories/FloatModel.v
theories/ExprModel.v
theories/CutFacts.v
theories/TypeTokenFacts.v
theories/LiteralFacts.v
theories/ExprFacts.v
theories/FirstFacts.v
theories/ResolveFacts.v
theories/FloatFacts.v
theories/PropExpr.v
theories/PropFloat.v
theories/PropTime.v
theories/WrittenFacts.v
theories/PropWritten.v
theories/RelModel.v
theories/RelFacts.v
theories/SubqueryFacts.v
theories/PropRel.v
theories/RelReadFacts.v
theories/PropRelRead.v
theories/PropSubquery.v
theories/SectionModel.v
theories/SectionFacts.v
theories/SectionLossFacts.v
theories/WholeModel.v
theories/WholeFacts.v
theories/WholeNameFacts.v
theories/WholeReadFacts.v
theories/WholeTripFacts.v
theories/EvalFacts.v
theories/PropWhole.v
theories/PropSection.v
theories/DefineFacts.v
theories/PropDefine.v
theories/KindModel.v
theories/KindFacts.v
theories/PropKind.v
theories/SessionModel.v
theories/PropSession.v
theories/PrintFacts.v
theories/PropPrint.v
theories/VisitMessages.v
theories/VisitModel.v
theories/VisitFacts.v
theories/VisitMainFacts.v
theories/PropVisit.v
theories/DeclAgainFacts.v
theories/WholeAgainFacts.v
theories/WholeStableFacts.v
theories/PropAgain.v
theories/SoundFacts.v
theories/PropSound.v
theories/WrittenTypeFacts.v
theories/TrapFacts.v
theories/WordFacts.v
theories/TypeWordFacts.v
theories/TrapPlanFacts.v
theories/TrapTextFacts.v
theories/PropTrap.v
theories/ExtFacts.v
theories/RenumberFacts.v
theories/KindOrderFacts.v
theories/RelOrderFacts.v
theories/DefineOrderFacts.v
theories/PropOrder.v
theories/SubModel.v
theories/SubAgreeFacts.v
theories/SubFacts.v
theories/StepFacts.v
theories/SubPlanFacts.v
theories/SubTrapFacts.v
theories/ColumnFacts.v
theories/PropColumns.v
theories/OuterFacts.v
theories/PropSub.v
theories/SubOrderFacts.v
theories/SubDefineFacts.v
theories/SubRelOrderFacts.v
theories/PropSubOrder.v
theories/PropRootNames.v

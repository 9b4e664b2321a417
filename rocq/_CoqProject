-Q theories Verif
theories/PyBase.v
theories/Num.v
theories/Sorting.v
theories/Val.v
theories/RVModel.v
theories/Spec.v
theories/CmpFacts.v
theories/SortFacts.v
theories/MassFacts.v
theories/NumFacts.v
theories/RVFacts.v
theories/ConstructFacts.v
theories/PropConstruct.v
theories/ConvFacts.v
theories/IntFacts.v
theories/RoundFacts.v
theories/LimitFacts.v
theories/OpFacts.v
theories/UnaryFacts.v
theories/TieFacts.v
theories/MixFacts.v
theories/OutModel.v
theories/OutFacts.v
theories/PropOps.v
theories/UtilModel.v
theories/UtilFacts.v
theories/Obj.v
theories/RollModel.v
theories/RollSpec.v
theories/RollFacts.v
theories/RollErrFacts.v
theories/RollObjFacts.v
theories/NameModel.v
theories/NameFacts.v
theories/PropRoll.v
theories/OrderFacts.v
theories/AtModel.v
theories/ExpandFacts.v
theories/SelectFacts.v
theories/PropOrder.v
theories/CastModel.v
theories/DepthFacts.v
theories/CastSpec.v
theories/CastFacts.v
theories/PropCast.v
theories/DispModel.v
theories/SeqSpec.v
theories/DispFacts.v
theories/SeqFacts.v
theories/PropSeq.v
theories/LibModel.v
theories/LibSpec.v
theories/LawFacts.v
theories/LibFacts.v
theories/LibLaws.v
theories/CastMixFacts.v
theories/PoolFacts.v
theories/ExplodeFacts.v
theories/GwfFacts.v
theories/PropLib.v
theories/SettingsModel.v
theories/SettingsFacts.v
theories/PropSettings.v
theories/LabelModel.v
theories/LabelFacts.v
theories/PropLabel.v
theories/RollerModel.v
theories/RollerFacts.v
theories/PropRoller.v
theories/LexModel.v
theories/LexSpec.v
theories/LexFacts.v
theories/PropLex.v
theories/GramModel.v
theories/ParseModel.v
theories/ResolveModel.v
theories/LrFacts.v
theories/SynSpec.v
theories/SynInd.v
theories/ExprParse.v
theories/ExprParse2.v
theories/StmtParse.v
theories/SynNorm.v
theories/ParseSound.v
theories/ParseLaws.v
theories/PropParse.v
theories/NameSpec.v
theories/ResolveGen.v
theories/HeaderFacts.v
theories/ResolveFacts.v
theories/CompileFacts.v
theories/PropResolve.v
theories/PropLen.v
theories/PySpec.v
theories/PyDet.v
theories/PyTrans.v
theories/PyLexFacts.v
theories/PyReady.v
theories/PyToks.v
theories/PyRead.v
theories/PyLines.v
theories/PyStmt.v
theories/PyProg.v
theories/PyCompile.v
theories/StrSpec.v
theories/PyStrFacts.v
theories/PyInject.v
theories/PyLaws.v
theories/PyProgLaws.v
theories/PyFlat.v
theories/PyAny.v
theories/PyWords.v
theories/PyValid.v
theories/BlankFacts.v
theories/PropPy.v
theories/PropStr.v
theories/Runtime.v
theories/PySem.v
theories/ExecModel.v
theories/MeanSpec.v
theories/RunSpec.v
theories/SemFacts.v
theories/SemStmt.v
theories/SemRun.v
theories/SemLaws.v
theories/RunModel.v
theories/StopSpec.v
theories/StopFacts.v
theories/StopLaws.v
theories/PropRun.v
theories/RefineFacts.v
theories/IdealSpec.v
theories/IdealFacts.v
theories/IdealOps.v
theories/IdealPick.v
theories/IdealVals.v
theories/IdealCast.v
theories/IdealLib.v
theories/IdealLaws.v
theories/PropIdeal.v
theories/ReadSpec.v
theories/ReadFacts.v
theories/PropRead.v
theories/PrintModel.v
theories/PrintSpec.v
theories/StdFacts.v
theories/PrintFacts.v
theories/AltModel.v
theories/AltFacts.v
theories/FloatSpec.v
theories/FloatFacts.v
theories/PropPrint.v
theories/NumSpec.v
theories/NumTextFacts.v
theories/LitFacts.v
theories/ScopeSpec.v
theories/ScopeFacts.v
theories/ScopeStmt.v
theories/ScopeRun.v
theories/ScopeLaws.v
theories/ScopeLib.v
theories/ScopeSame.v
theories/PropScope.v
theories/StartSpec.v
theories/StartLaws.v
theories/StartSame.v
theories/RefineOver.v
theories/StopOver.v
theories/SessSpec.v
theories/QuietFacts.v
theories/SessFacts.v
theories/PropStart.v
theories/PropSession.v
theories/ViableFacts.v
theories/ReportModel.v
theories/ReportSpec.v
theories/ReportFacts.v
theories/ReportLaws.v
theories/PropReport.v
theories/ReSem.v
theories/PlyLexModel.v
theories/PlySpec.v
theories/ReFacts.v
theories/PlyLexFacts.v
theories/ReNumber.v
theories/PropPly.v
theories/PlyYaccModel.v
theories/PlyParseModel.v
theories/PlyYaccSpec.v
theories/PlyYaccFacts.v
theories/PropYacc.v
theories/PipeModel.v
theories/PipeSpec.v
theories/PipeFacts.v
theories/PropPipe.v
theories/MainModel.v
theories/MainSpec.v
theories/MainFacts.v
theories/PropMain.v
theories/TextSpec.v
theories/TextFacts.v
theories/PropText.v
theories/ShowSpec.v
theories/ShowFacts.v
theories/PropShow.v
theories/BaseModel.v
theories/PropBase.v
theories/RoundToModel.v
theories/RoundToSpec.v
theories/RoundToFacts.v
theories/PropRound.v
theories/EqModel.v
theories/EqSpec.v
theories/EqFacts.v
theories/PropEq.v
theories/SameSpec.v
theories/SameFacts.v
theories/SameText.v
theories/PropSame.v
theories/WriteSpec.v
theories/WriteFacts.v
theories/PropWrite.v
theories/LayoutFacts.v
theories/PropLayout.v
theories/PercentSpec.v
theories/PercentFacts.v
theories/PropPercent.v
theories/DiceTextSpec.v
theories/DiceTextFacts.v
theories/PropDiceText.v
theories/KindSpec.v
theories/KindFacts.v
theories/KindRun.v
theories/PropKind.v
theories/InlineSpec.v
theories/InlineFacts.v
theories/PropInline.v
theories/ExpectSpec.v
theories/ExpectFacts.v
theories/PropExpect.v
theories/StepFacts.v
theories/MoreSpec.v
theories/MoreFacts.v
theories/PropMore.v
theories/StandSpec.v
theories/StandFacts.v
theories/StandText.v
theories/PropStand.v
theories/MomentFacts.v
theories/PropMoment.v
theories/ChanceSpec.v
theories/ChanceFacts.v
theories/ChancePool.v
theories/PropChance.v
theories/CountFacts.v
theories/PropCount.v

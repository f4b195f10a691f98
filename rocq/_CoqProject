-Q theories Verif
theories/AllocModel.v
theories/ArgModel.v
theories/Base.v
theories/CmdFail.v
theories/CmdFailProofs.v
theories/CmdModel.v
theories/CmdProofs.v
theories/CmdSpec.v
theories/CommandProofs.v
theories/CommandSpec.v
theories/DateModel.v
theories/DateProofs.v
theories/DateSpec.v
theories/DstrFail.v
theories/DstrFailProofs.v
theories/DstrModel.v
theories/DstrProofs.v
theories/DstrSpec.v
theories/ErrorProofs.v
theories/ErrorSpec.v
theories/ExTable.v
theories/FileModel.v
theories/FileSpec.v
theories/FilesModel.v
theories/FormatProofs.v
theories/FormatSpec.v
theories/GetoptIdx.v
theories/GetoptModel.v
theories/GetoptProofs.v
theories/GetoptSay.v
theories/HashFacts.v
theories/HashModel.v
theories/HashProofs.v
theories/HashSpec.v
theories/HashTight.v
theories/HelpFail.v
theories/HelpModel.v
theories/IndexSpec.v
theories/InsertProofs.v
theories/IntModel.v
theories/IntProofs.v
theories/IntSpec.v
theories/KindsProofs.v
theories/KindsSpec.v
theories/LayoutModel.v
theories/LongOnlyFacts.v
theories/LongOnlySpec.v
theories/MemModel.v
theories/MgsortBytesModel.v
theories/MgsortModel.v
theories/MgsortTrace.v
theories/MultiModel.v
theories/NestModel.v
theories/NestProofs.v
theories/NestSpec.v
theories/OptTables.v
theories/ParseFacts.v
theories/ParseIdeal.v
theories/ParseLemmas.v
theories/ParseModel.v
theories/ParseObserve.v
theories/ParseProofs.v
theories/ParseSafe.v
theories/ParseSpec.v
theories/PermuteProofs.v
theories/PrintFacts.v
theories/PrintModel.v
theories/PrintProofs.v
theories/PrintSpec.v
theories/ProgramModel.v
theories/PropAfterPanic.v
theories/PropAfterPanicCmd.v
theories/PropAfterPanicModule.v
theories/PropCmd.v
theories/PropCommand.v
theories/PropConcat.v
theories/PropConvey.v
theories/PropConveyAll.v
theories/PropDate.v
theories/PropDstr.v
theories/PropDstrPart.v
theories/PropErrors.v
theories/PropExtend.v
theories/PropFile.v
theories/PropFiles.v
theories/PropFormat.v
theories/PropGetopt.v
theories/PropHash.v
theories/PropHelp.v
theories/PropIndex.v
theories/PropInt.v
theories/PropKinds.v
theories/PropLayout.v
theories/PropLeave.v
theories/PropLongOnly.v
theories/PropLoosen.v
theories/PropMemory.v
theories/PropMgsort.v
theories/PropMgsortBytes.v
theories/PropMgsortTrace.v
theories/PropModule.v
theories/PropMultisyntax.v
theories/PropNest.v
theories/PropOrder.v
theories/PropOwn.v
theories/PropParse.v
theories/PropPosix.v
theories/PropPrint.v
theories/PropProgram.v
theories/PropQuote.v
theories/PropRemark.v
theories/PropRemarkShown.v
theories/PropReparse.v
theories/PropReport.v
theories/PropRex.v
theories/PropRexCost.v
theories/PropRexGood.v
theories/PropRexTable.v
theories/PropRexTidy.v
theories/PropRoam.v
theories/PropSeveral.v
theories/PropShare.v
theories/PropStrftime.v
theories/PropSub.v
theories/PropSyntaxes.v
theories/PropTable.v
theories/PropTableOrder.v
theories/PropTables.v
theories/PropTags.v
theories/PropTest.v
theories/PropTexts.v
theories/PropUsage.v
theories/PropUtil.v
theories/PropVerbose.v
theories/PropWarn.v
theories/ReparseProofs.v
theories/ReportProofs.v
theories/ReportSpec.v
theories/RexCompile.v
theories/RexComplete.v
theories/RexCost.v
theories/RexForward.v
theories/RexMatch.v
theories/RexModel.v
theories/RexRead.v
theories/RexSpec.v
theories/RexTerm.v
theories/RoamProofs.v
theories/RoamSpec.v
theories/ShareModel.v
theories/ShareProofs.v
theories/ShareSpec.v
theories/StrftimeSpec.v
theories/SubModel.v
theories/SubSpec.v
theories/TableModel.v
theories/UsageSpec.v
theories/UtilModel.v
theories/VerboseSpec.v
theories/WarnModel.v
theories/WarnSpec.v

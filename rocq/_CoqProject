-Q theories Verif
theories/PyBase.v
theories/PyBaseFacts.v
theories/PyStr.v
theories/PyStrFacts.v
theories/TypeModel.v
theories/TypeSpec.v
theories/WordFacts.v
theories/TypeProofs.v
theories/PropsType.v
theories/StoreModel.v
theories/StoreSpec.v
theories/StoreProofs.v
theories/PropsStore.v
theories/MacroModel.v
theories/MacroSpec.v
theories/MacroProofs.v
theories/MacroDefProofs.v
theories/PropsMacro.v
theories/PyExpr.v
theories/PpModel.v
theories/PpSpec.v
theories/CondProofs.v
theories/ExprSpec.v
theories/ExprProofs.v
theories/ExprText.v
theories/PpProofs.v
theories/TextSpec.v
theories/TextProofs.v
theories/PackProofs.v
theories/PpExamples.v
theories/PropsPp.v
theories/DeclModel.v
theories/DeclSpec.v
theories/DeclProofs.v
theories/DeclStore.v
theories/EvalModel.v
theories/EvalSpec.v
theories/EvalProofs.v
theories/DeclVars.v
theories/EvalEnum.v
theories/PropsDecl.v
theories/UtilModel.v
theories/InitModel.v
theories/UtilSpec.v
theories/UtilProofs.v
theories/PropsUtil.v
theories/LibModel.v
theories/LibSpec.v
theories/LibProofs.v
theories/PropsLib.v
theories/FunModel.v
theories/FunSpec.v
theories/FunProofs.v
theories/PropsFun.v
theories/CtModel.v
theories/CtSpec.v
theories/CtMono.v
theories/CtProofs.v
theories/CtFinish.v
theories/CtOne.v
theories/CtShape.v
theories/CtFields.v
theories/CtData.v
theories/CtWords.v
theories/CtExamples.v
theories/PropsCt.v
theories/GramModel.v
theories/GramSpec.v
theories/GramLex.v
theories/GramExpr.v
theories/GramProofs.v
theories/GramTotal.v
theories/GramTabs.v
theories/NoiseSpec.v
theories/RunSpec.v
theories/GramPack.v
theories/NoiseProofs.v
theories/GramRun.v
theories/GramExamples.v
theories/NestExamples.v
theories/PropsGram.v
theories/FileModel.v
theories/FileSpec.v
theories/CallProofs.v
theories/FileProofs.v
theories/FileTables.v
theories/FileLayout.v
theories/FileWhole.v
theories/PackedSpec.v
theories/SectionProofs.v
theories/PackedProofs.v
theories/PackedWhole.v
theories/FilesSpec.v
theories/FilesProofs.v
theories/FileExamples.v
theories/PropsFile.v
theories/PropsPacked.v
theories/LinkModel.v
theories/LinkSpec.v
theories/LinkProofs.v
theories/LinkRead.v
theories/LinkRun.v
theories/LinkMain.v
theories/LinkCall.v
theories/LinkTags.v
theories/LinkEnd.v
theories/LinkExamples.v
theories/PropsLink.v
theories/AutoSpec.v
theories/AutoProofs.v
theories/PropsAuto.v
theories/FindModel.v
theories/FindSpec.v
theories/FindProofs.v
theories/PropsFind.v
theories/ChainSpec.v
theories/ChainProofs.v
theories/PropsChain.v
theories/ConstModel.v
theories/ConstSpec.v
theories/ConstProofs.v
theories/PropsConst.v
theories/ReprModel.v
theories/ReprSpec.v
theories/ReprProofs.v
theories/PropsRepr.v
theories/CachedOrder.v
theories/CachedModel.v
theories/CachedSpec.v
theories/CachedProofs.v
theories/PropsCached.v
theories/PropsNoise.v
theories/UnparsedModel.v
theories/UnparsedSpec.v
theories/UnparsedProofs.v
theories/PropsUnparsed.v
theories/ObjModel.v
theories/ObjSpec.v
theories/ObjProofs.v
theories/ObjChain.v
theories/PropsObj.v
theories/InvokeModel.v
theories/InvokeSpec.v
theories/InvokeProofs.v
theories/InvokeChain.v
theories/PropsInvoke.v
theories/ResultModel.v
theories/ResultSpec.v
theories/ResultProofs.v
theories/ResultChain.v
theories/PropsResult.v
theories/HelpModel.v
theories/HelpSpec.v
theories/HelpProofs.v
theories/HelpChain.v
theories/PropsHelp.v
theories/MultiModel.v
theories/MultiSpec.v
theories/MultiProofs.v
theories/MultiMain.v
theories/PropsMulti.v
theories/StepsSpec.v
theories/StepsLike.v
theories/StepsProofs.v
theories/PropsSteps.v
theories/GrowSpec.v
theories/GrowProofs.v
theories/PropsGrow.v
theories/SigModel.v
theories/SigSpec.v
theories/SigProofs.v
theories/PropsSig.v
theories/PathModel.v
theories/PathSpec.v
theories/PathProofs.v
theories/PropsPath.v
theories/NumSpec.v
theories/NumProofs.v
theories/RepoTests.v
theories/RepoLibrary.v

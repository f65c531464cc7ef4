-Q theories Verif
theories/Chars.v
theories/LexModel.v
theories/LexInv.v
theories/LexHandlers.v
theories/LexHandlers2.v
theories/LexHandlers3.v
theories/LexHandlers4.v
theories/LexHandlers5.v
theories/LexHandlers6.v
theories/LexSpec.v
theories/LexRun.v
theories/LexRun2.v
theories/LexRun3.v
theories/LexRefute.v
theories/PropLex.v
theories/LexSpec2.v
theories/LexFun.v
theories/LexFun2.v
theories/LexFun3.v
theories/LexFun4.v
theories/LexFun5.v
theories/LexFun6.v
theories/LexFun7.v
theories/PropLex2.v
theories/TokModel.v
theories/TokSpec.v
theories/TokProofs.v
theories/PropTok.v
theories/CcmModel.v
theories/CcmSpec.v
theories/CcmProofs.v
theories/PropCcm.v
theories/DocModel.v
theories/DocSpec.v
theories/DocProofs.v
theories/PropDoc.v
theories/PhpTypes.v
theories/MergeModel.v
theories/MergeSpec.v
theories/MergeProofs.v
theories/PropMerge.v
theories/HintModel.v
theories/HintSpec.v
theories/HintProofs.v
theories/PropHint.v
theories/ComplModel.v
theories/ComplSpec.v
theories/ComplProofs.v
theories/ComplProofs2.v
theories/ComplProofs3.v
theories/PropCompl.v
theories/ClsModel.v
theories/ClsSpec.v
theories/ClsProofs.v
theories/ClsProofs2.v
theories/PropCls.v
theories/HelpModel.v
theories/HelpSpec.v
theories/HelpProofs.v
theories/HelpProofs2.v
theories/HelpProofs3.v
theories/HelpProofs4.v
theories/PropHelp.v
theories/InhModel.v
theories/InhSpec.v
theories/InhProofs.v
theories/PropInh.v
theories/NsModel.v
theories/NsSpec.v
theories/NsProofs.v
theories/PropNs.v
theories/ModModel.v
theories/ModSpec.v
theories/ModProofs.v
theories/PropMod.v
theories/TraitModel.v
theories/TraitSpec.v
theories/TraitProofs.v
theories/TraitProofs2.v
theories/PropTrait.v
theories/LookModel.v
theories/LookSpec.v
theories/LookProofs.v
theories/PropLook.v
theories/InclModel.v
theories/InclSpec.v
theories/InclProofs.v
theories/PropIncl.v
theories/HoverModel.v
theories/HoverSpec.v
theories/HoverProofs.v
theories/PropHover.v
theories/JobModel.v
theories/JobProofs.v
theories/PropJob.v
theories/UnitModel.v
theories/UnitSpec.v
theories/UnitProofs.v
theories/PropUnit.v
theories/DocsModel.v
theories/DocsSpec.v
theories/DocsProofs.v
theories/PropDocs.v
theories/RenModel.v
theories/RenSpec.v
theories/RenProofs.v
theories/PropRen.v
theories/UseModel.v
theories/UseSpec.v
theories/UseProofs.v
theories/PropUse.v
theories/TyModel.v
theories/TySpec.v
theories/TyProofs.v
theories/PropTy.v
theories/ExprModel.v
theories/ExprSpec.v
theories/ExprProofs.v
theories/PropExpr.v
theories/LexCut.v
theories/LexCut2.v
theories/LexCut3.v
theories/LexCut4.v
theories/LexCut5.v
theories/LexCut6.v
theories/LexCut7.v
theories/LexCutSpec.v
theories/LexCut8.v
theories/PropLex3.v
theories/CtxSpec.v
theories/CtxProofs.v
theories/CtxProofs2.v
theories/CtxProofs3.v
theories/CtxProofs4.v
theories/CtxProofs5.v
theories/CtxProofs6.v
theories/CtxProofs7.v
theories/CtxProofs8.v
theories/CtxProofs9.v
theories/PropCtx.v
theories/ParseModel.v
theories/ParseSpec.v
theories/ParseProofs.v
theories/ParseProofs2.v
theories/ParseProofs3.v
theories/ParseProofs4.v
theories/ParseProofs5.v
theories/ParseProofs6.v
theories/ParseProofs7.v
theories/ParseProofs8.v
theories/PropParse.v
theories/PexSpec.v
theories/PexProofs.v
theories/PexProofs2.v
theories/PexProofs3.v
theories/PexProofs4.v
theories/PexAtoms.v
theories/PexAtoms2.v
theories/PexAtoms3.v
theories/PexAtoms4.v
theories/PexProofs5.v
theories/PexEvery.v
theories/PexProofs6.v
theories/PropPex.v
theories/PexPath.v
theories/PexPath2.v
theories/PexSpec2.v
theories/PexProofs7.v
theories/PexProofs8.v
theories/PropPex2.v
theories/StSpec.v
theories/StTakes.v
theories/StNames.v
theories/StParts.v
theories/StProofs.v
theories/StProofs2.v
theories/StProofs3.v
theories/StProofs4.v
theories/StProofs5.v
theories/StFile.v
theories/FnProofs.v
theories/PropSt.v
theories/VarModel.v
theories/VarSpec.v
theories/VarProofs.v
theories/VarProofs2.v
theories/VarProofs3.v
theories/VarProofs4.v
theories/VarProofs5.v
theories/PropVar.v
theories/OccModel.v
theories/OccSpec.v
theories/OccProofs.v
theories/OccProofs2.v
theories/OccProofs3.v
theories/OccProofs4.v
theories/OccProofs5.v
theories/OccProofs6.v
theories/PropOcc.v
theories/PropertySpec.v
theories/PropertyProofs.v
theories/PropertyProofs2.v
theories/PropertyProofs3.v
theories/PropertyProofs4.v
theories/PropProperty.v
theories/SrcSpec.v
theories/SrcProofs.v
theories/SrcProofs2.v
theories/SrcProofs3.v
theories/SrcProofs4.v
theories/SrcProofs5.v
theories/SrcPrint.v
theories/SrcFile.v
theories/SrcCase.v
theories/PropSrc.v
theories/SemModel.v
theories/SemSpec.v
theories/SemProofs.v
theories/SemProofs2.v
theories/SemProofs3.v
theories/SemProofs4.v
theories/SemProofs5.v
theories/PropSem.v
theories/RecModel.v
theories/RecSpec.v
theories/RecProofs.v
theories/RecProofs2.v
theories/PropRec.v
theories/OvrModel.v
theories/OvrSpec.v
theories/OvrProofs.v
theories/OvrProofs2.v
theories/OvrProofs3.v
theories/OvrSpec2.v
theories/OvrProofs4.v
theories/OvrProofs5.v
theories/OvrCase.v
theories/PropOvr.v
theories/ChainModel.v
theories/ChainSpec.v
theories/ChainProofs.v
theories/ChainProofs2.v
theories/ChainRefut.v
theories/PropChain.v
theories/IncItemModel.v
theories/IncItemSpec.v
theories/IncItemProofs.v
theories/IncItemProofs2.v
theories/PropIncItem.v
theories/NamedModel.v
theories/NamedSpec.v
theories/NamedProofs.v
theories/NamedProofs2.v
theories/NamedProofs3.v
theories/NamedProofs4.v
theories/NamedProofs5.v
theories/PropNamed.v
theories/AccModel.v
theories/AccSpec.v
theories/AccProofs.v
theories/PropAcc.v
theories/VisModel.v
theories/VisSpec.v
theories/VisProofs.v
theories/PropVis.v
theories/NewModel.v
theories/NewSpec.v
theories/NewProofs.v
theories/PropNew.v
theories/CallModel.v
theories/CallSpec.v
theories/CallProofs.v
theories/PropCall.v
theories/MemModel.v
theories/MemSpec.v
theories/MemProofs.v
theories/PropMem.v
theories/ThisModel.v
theories/ThisSpec.v
theories/ThisProofs.v
theories/PropThis.v
theories/CloModel.v
theories/CloSpec.v
theories/CloProofs.v
theories/PropClo.v

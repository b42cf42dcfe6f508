-Q theories Verif
theories/Base.v
theories/Spec.v
theories/Lib.v
theories/AeuModel.v
theories/AeuArith.v
theories/AeuBits.v
theories/AeuAccess.v
theories/AeuDiv.v
theories/AeuFacts.v
theories/AeuMore.v
theories/AesiModel.v
theories/AesiArith.v
theories/AesiFacts.v
theories/MixModel.v
theories/MixFacts.v
theories/TextSpec.v
theories/TextModel.v
theories/TextFacts.v
theories/TextOut.v
theories/TextHex.v
theories/TextMore.v
theories/TextWidth.v
theories/TextWide.v
theories/BinSpec.v
theories/BinModel.v
theories/BinFacts.v
theories/AliasModel.v
theories/AliasFacts.v
theories/AliasSigned.v
theories/AliasDiv.v
theories/ProgSpec.v
theories/ProgModel.v
theories/UseModel.v
theories/SanModel.v
theories/Fermat.v
theories/ProgFacts.v
theories/ProgTotal.v
theories/ProgSigned.v
theories/AtomicSpec.v
theories/AtomicModel.v
theories/AtomicFacts.v
theories/PropsAlias.v
theories/PropsProg.v
theories/PropsAtomic.v
theories/PropsText.v
theories/PropsText2.v
theories/PropsBin.v
theories/PropsAeu.v
theories/PropsAesi.v
theories/PropsMix.v
theories/PropsMore.v
theories/PropsUse.v
theories/PropsUse2.v
theories/PropsSan.v
theories/PropsExact.v
theories/TestModel.v
theories/TestFacts.v
theories/PropsTest.v
theories/PropsTest2.v
theories/TestModel2.v
theories/PropsTest3.v
theories/CfgFacts.v
theories/PropsCfg.v
theories/TextShort.v
theories/PropsShort.v
theories/CiModel.v
theories/PropsCi.v
theories/PropsEdge.v
theories/StreamModel.v
theories/StreamFacts.v
theories/PropsStream.v
theories/ExchModel.v
theories/MixAtomicModel.v
theories/PropsExch.v
theories/AnyBaseModel.v
theories/PropsBase.v
theories/PropsFile.v
theories/CastModel.v
theories/PropsCast.v
theories/TestModel3.v
theories/PropsTest4.v
theories/PropsFmt.v
theories/XStreamModel.v
theories/PropsThrow.v
theories/PropsExact2.v
theories/PresModel.v
theories/PropsPres.v
theories/PropsShare.v
theories/UseModel2.v
theories/PropsUse3.v
theories/SummaryModel.v
theories/PropsSummary.v
theories/TestModel4.v
theories/PropsTest5.v
theories/PropsTest6.v
theories/TestModel5.v
theories/PropsTest7.v
theories/PropsMixAtomic.v
theories/WholeSpec.v
theories/WholeModel.v
theories/PropsWhole.v
theories/PropsWhole2.v
theories/WidenSpec.v
theories/PropsWiden.v
theories/MachModel.v
theories/MachFacts.v
theories/PropsMach.v
theories/MachSigned.v
theories/MachText.v
theories/PropsMachS.v
theories/PropsMachT.v
theories/IniModel.v
theories/IniFacts.v
theories/IniSpec.v
theories/PropsIni.v
theories/IniSigned.v
theories/PropsIniS.v
theories/IniProgSpec.v
theories/IniProgModel.v
theories/PropsIniP.v
theories/MachProg.v
theories/PropsMachP.v
theories/IniText.v
theories/IniTextSpec.v
theories/IniTextFacts.v
theories/PropsIniT.v
theories/IniBin.v
theories/PropsIniB.v
theories/IniWholeSpec.v
theories/IniWhole.v
theories/PropsIniW.v
theories/ThrMonad.v
theories/ThrModel.v
theories/ThrSpec.v
theories/ThrFacts.v
theories/ThrStore.v
theories/ThrExec.v
theories/ThrFoot.v
theories/ThrSafe.v
theories/PropsThr.v
theories/PropsThr2.v
theories/SThrModel.v
theories/SThrSpec.v
theories/SThrFacts.v
theories/SThrExec.v
theories/SThrFoot.v
theories/SThrSafe.v
theories/SThrSign.v
theories/PropsThrS.v
theories/PropsThrS2.v
theories/ThrWeak.v
theories/PropsThrW.v
theories/ThrTrace.v
theories/TraceSpec.v
theories/ThrSteady.v
theories/PropsThrT.v
theories/ThrCount.v
theories/PropsThrC.v
theories/STraceSpec.v
theories/SThrCount.v
theories/PropsThrS3.v
theories/UseModel3.v
theories/PropsUse4.v
theories/UseModel4.v
theories/PropsUse5.v
theories/UseModel5.v
theories/PropsUse6.v
theories/UseModel6.v
theories/PropsUse7.v
theories/UseModel7.v
theories/PropsUse8.v

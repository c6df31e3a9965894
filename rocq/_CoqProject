-Q theories Verif
theories/Base.v
theories/ParamModel.v
theories/ParamSpec.v
theories/ParamProof.v
theories/ParamProps.v
theories/ParserModel.v
theories/ParserLex.v
theories/ParserSafe.v
theories/ParserSpec.v
theories/ParserGram.v
theories/ParserProof.v
theories/ParserDeriv.v
theories/MathModel.v
theories/MathSpec.v
theories/MathProof.v
theories/MathProps.v
theories/ParserCases.v
theories/ParserProps.v
theories/RSum.v
theories/MatrixModel.v
theories/MatrixProof.v
theories/ErrorModel.v
theories/ErrorProof.v
theories/MatrixProps.v
theories/ParserUsed.v
theories/ConModel.v
theories/Util.v
theories/ConSpec.v
theories/ConProof.v
theories/ConHist.v
theories/ConReal.v
theories/ConCases.v
theories/ConProps.v
theories/GaussModel.v
theories/GaussSpec.v
theories/GaussProof.v
theories/GaussProps.v
theories/LsModel.v
theories/LsSpec.v
theories/CtlProof.v
theories/LsProof.v
theories/LsStep.v
theories/LsRun.v
theories/LsRaw.v
theories/LsMore.v
theories/LsCases.v
theories/LsCases2.v
theories/LsProps.v
theories/OrderModel.v
theories/OrderProof.v
theories/OrderProps.v
theories/MetricModel.v
theories/MetricSpec.v
theories/MetricProof.v
theories/MetricProps.v
theories/SphereModel.v
theories/SphereSpec.v
theories/SphereProof.v
theories/SphereProps.v
theories/SessModel.v
theories/SessSpec.v
theories/SessProof.v
theories/SessProof2.v
theories/SessProof3.v
theories/SessEx.v
theories/SessProps.v
theories/PdfModel.v
theories/PdfSpec.v
theories/PdfProof.v
theories/PdfGeo.v
theories/PdfSum.v
theories/PdfPeak.v
theories/PdfPhase.v
theories/PdfFft.v
theories/PdfTotal.v
theories/PdfSafe.v
theories/PdfEx.v
theories/PdfFinal.v
theories/PdfProps.v
theories/DataModel.v
theories/DataSpec.v
theories/DataProof.v
theories/DataFinal.v
theories/DataPlot.v
theories/DataEx.v
theories/DataProps.v
theories/ElementTable.v
theories/ScatModel.v
theories/ScatSpec.v
theories/ScatProof.v
theories/FracProof.v
theories/ScatEx.v
theories/ScatProps.v
theories/LayoutModel.v
theories/LayoutSpec.v
theories/LayoutProof.v
theories/LayoutProps.v
theories/DerivModel.v
theories/DerivSpec.v
theories/DerivRow.v
theories/DerivPair.v
theories/DerivCut.v
theories/DerivSetup.v
theories/DerivCalc.v
theories/DerivPeak.v
theories/DerivGeo.v
theories/DerivPhase.v
theories/DerivOps.v
theories/DerivOne.v
theories/DerivSets.v
theories/DerivFinal.v
theories/DerivOut.v
theories/DerivWit.v
theories/DerivBad.v
theories/DerivEx.v
theories/DerivProps.v
theories/BondModel.v
theories/BondSpec.v
theories/BondProof.v
theories/BondNear.v
theories/BondAngle.v
theories/BondErr.v
theories/BondEx.v
theories/BondFinal.v
theories/BondProps.v
theories/FmtModel.v
theories/FmtSpec.v
theories/FmtProof.v
theories/FmtGen.v
theories/FmtFinal.v
theories/FmtProps.v
theories/StruModel.v
theories/StruSpec.v
theories/StruLex.v
theories/StruHead.v
theories/StruIns.v
theories/StruInv.v
theories/StruSave.v
theories/StruEx.v
theories/StruFinal.v
theories/StruProps.v
theories/SaveModel.v
theories/SaveSpec.v
theories/SaveProof.v
theories/SaveFinal.v
theories/SaveAny.v
theories/SaveProps.v
theories/ReportModel.v
theories/ReportSpec.v
theories/ReportProof.v
theories/ReportFinal.v
theories/ReportSel.v
theories/ReportEx.v
theories/ReportProps.v
theories/BindModel.v
theories/BindSpec.v
theories/BindErr.v
theories/BindProof.v
theories/BindProof2.v
theories/BindEx.v
theories/BindProps.v
theories/PyModel.v
theories/PySpec.v
theories/PyText.v
theories/PyProof.v
theories/PyRef.v
theories/PyPar.v
theories/PyFun.v
theories/PyEx.v
theories/PyProps.v
theories/FloatModel.v
theories/FloatSpec.v
theories/FloatArith.v
theories/FloatProof.v
theories/FloatCalc.v
theories/FloatRead.v
theories/FloatFinal.v
theories/FloatEx.v
theories/FloatProps.v
theories/OutModel.v
theories/OutSpec.v
theories/OutProof.v
theories/OutPhase.v
theories/OutData.v
theories/OutFinal.v
theories/OutEx.v
theories/OutProps.v
theories/RedirModel.v
theories/RedirSpec.v
theories/RedirProof.v
theories/RedirEx.v
theories/RedirProps.v
theories/FileModel.v
theories/FileSpec.v
theories/FileProof.v
theories/FileEx.v
theories/FileProps.v
theories/BlenModel.v
theories/BlenSpec.v
theories/BlenProof.v
theories/BlenEnd.v
theories/BlenEx.v
theories/BlenProps.v
theories/CellModel.v
theories/CellSpec.v
theories/CellProof.v
theories/CellFinal.v
theories/CellEx.v
theories/CellProps.v
theories/FitTextModel.v
theories/FitTextSpec.v
theories/FitTextProof.v
theories/FitTextFinal.v
theories/FitTextEx.v
theories/FitTextProps.v
theories/RunLogModel.v
theories/RunLogSpec.v
theories/RunLogProof.v
theories/RunLogFinal.v
theories/RunLogAny.v
theories/RunLogEx.v
theories/RunLogProps.v
theories/LinSpec.v
theories/LinProof.v
theories/LinRun.v
theories/LinFinal.v
theories/LinEx.v
theories/LinProps.v
theories/TheoryModel.v
theories/TheorySpec.v
theories/TheoryMem.v
theories/TheoryEx.v
theories/TheoryProps.v
theories/ScaleCols.v
theories/ScaleSpec.v
theories/ScaleMem.v
theories/ScaleLoad.v
theories/ScaleFinal.v
theories/ScaleLin.v
theories/ScaleEx.v
theories/ScaleProps.v
theories/RunModel.v
theories/RunSpec.v
theories/RunProof.v
theories/RunFinal.v
theories/RunEx.v
theories/RunProps.v
theories/GradSpec.v
theories/GradFill.v
theories/GradLoad.v
theories/GradSet.v
theories/GradFinal.v
theories/GradEx.v
theories/GradProps.v
theories/HadSpec.v
theories/HadCalc.v
theories/HadPdf.v
theories/HadLoad.v
theories/HadAlike.v
theories/HadSet.v
theories/HadNear.v
theories/HadFinal.v
theories/HadEx.v
theories/HadProps.v
theories/BetwSpec.v
theories/BetwProof.v
theories/BetwFinal.v
theories/BetwEx.v
theories/BetwProps.v
theories/FactModel.v
theories/FactSpec.v
theories/FactProof.v
theories/FactPdf.v
theories/FactFinal.v
theories/FactEx.v
theories/FactProps.v
theories/RelSpec.v
theories/RelProof.v
theories/RelFinal.v
theories/RelList.v
theories/RelTheory.v
theories/RelEx.v
theories/RelAll.v
theories/RelProps.v
theories/SupSpec.v
theories/SupProof.v
theories/SupFinal.v
theories/SupAll.v
theories/SupEx.v
theories/SupProps.v
theories/AxSpec.v
theories/AxProof.v
theories/AxFinal.v
theories/AxEx.v
theories/AxProps.v
theories/BasSpec.v
theories/BasProof.v
theories/BasFinal.v
theories/BasMake.v
theories/BasEx.v
theories/BasChain.v
theories/BasProps.v
theories/UniSpec.v
theories/UniProof.v
theories/UniEx.v
theories/UniProps.v
theories/ReflModel.v
theories/ReflSpec.v
theories/ReflProof.v
theories/ReflFinal.v
theories/ReflEx.v
theories/ReflProps.v
theories/NrModel.v
theories/NrSpec.v
theories/NrProof.v
theories/NrProps.v
theories/MxMemModel.v
theories/MxMemSpec.v
theories/MxMemProof.v
theories/MxMemProps.v
theories/OwnModel.v
theories/OwnSpec.v
theories/OwnProof.v
theories/OwnProps.v
theories/PtModel.v
theories/PtSpec.v
theories/PtProof.v
theories/PtFinal.v
theories/PtProps.v
theories/MxPrintModel.v
theories/MxPrintSpec.v
theories/MxPrintProof.v
theories/MxPrintProps.v
theories/ListsModel.v
theories/ListsSpec.v
theories/ListsProof.v
theories/ListsProps.v
theories/VersModel.v
theories/VersSpec.v
theories/VersProof.v
theories/VersProps.v

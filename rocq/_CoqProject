-Q theories Verif
theories/Num.v
theories/Numpy.v
theories/Unimodal.v
theories/RFacts.v
theories/Spec.v
theories/UnimodalProofs.v
theories/SpecFacts.v
theories/UnimodalMain.v
theories/P01_Unimodal.v
theories/Penalties.v
theories/MatFacts.v
theories/ProxProofs.v
theories/TVProofs.v
theories/ModelSpec.v
theories/PenaltySpec.v
theories/SvdFacts.v
theories/GenL2Proofs.v
theories/SimplexProofs.v
theories/Parafac2Proofs.v
theories/Parafac2Main.v
theories/PenaltyMain.v
theories/PenaltyExamples.v
theories/P02_Penalties.v
theories/CoupledMatrices.v
theories/CmfSpec.v
theories/CmfProofs.v
theories/P03_CoupledMatrices.v
theories/Decomp.v
theories/DecompSpec.v
theories/DecompFacts.v
theories/AdmmProofs.v
theories/AdmmB.v
theories/AdmmA.v
theories/AdmmRegs.v
theories/AdmmLoop.v
theories/AdmmOne.v
theories/AoState.v
theories/AoLoop.v
theories/AoRun.v
theories/AoHist.v
theories/AoMain.v
theories/AoMono.v
theories/AoPrefix.v
theories/AoErrors.v
theories/AdmmConv.v
theories/OptSpec.v
theories/AdmmFix.v
theories/AdmmFixB.v
theories/AdmmOpt.v
theories/Total.v
theories/TotalRun.v
theories/UpdMain.v
theories/Exist.v
theories/Ideal.v
theories/P04_Updates.v
theories/DecompExamples.v
theories/P05_Runs.v
theories/InitVars.v
theories/InitSpec.v
theories/InitProofs.v
theories/P06_Init.v
theories/Parse.v
theories/ParseSpec.v
theories/ParseProofs.v
theories/P07_Parse.v
theories/Fit.v
theories/FitSpec.v
theories/FitProofs.v
theories/P08_Fit.v
theories/P09_Calls.v
theories/P10_Start.v
theories/P11_Total.v
theories/FitExamples.v
theories/DocUtils.v
theories/DocSpec.v
theories/DocProofs.v
theories/P12_Doc.v
theories/RandomGen.v
theories/RandomSpec.v
theories/P13_Random.v
theories/DataSim.v
theories/DataSpec.v
theories/P14_Simulated.v
theories/DataCache.v
theories/CacheSpec.v
theories/P15_Cache.v
theories/EtchMachine.v
theories/EtchSpec.v
theories/P16_Etch.v
theories/Heap.v
theories/HeapSpec.v
theories/HeapFrame.v
theories/HeapRefine.v
theories/HeapBuffer.v
theories/P17_Heap.v
theories/OrderSpec.v
theories/OrderUni.v
theories/OrderProofs.v
theories/OrderSizes.v
theories/OrderFit.v
theories/FixedPoint.v
theories/P18_AnyArith.v
theories/CmfObject.v
theories/P19_Object.v
theories/P20_Contract.v
theories/BikeData.v
theories/P21_Bike.v
theories/Verbose.v
theories/P22_Verbose.v
theories/Binary64.v
theories/P23_Double.v
theories/AdmmRate.v
theories/ConvSpec.v
theories/AdmmCvg.v
theories/AdmmExist.v
theories/PenConvex.v
theories/AdmmSlater.v
theories/AdmmSol.v
theories/P24_Convergence.v
theories/ShortStart.v
theories/P25_Starts.v
theories/StartSpec.v
theories/InitParams.v
theories/P26_InitParams.v
theories/ReorderSpec.v
theories/ReorderFacts.v
theories/ReorderPen.v
theories/ReorderRun.v
theories/ReorderFit.v
theories/P27_Order.v
theories/ResumeSpec.v
theories/ResumeLoop.v
theories/ResumeProofs.v
theories/P28_Resume.v
theories/SymSpec.v
theories/SymFacts.v
theories/SymPen.v
theories/SymStep.v
theories/SymRun.v
theories/SymLoop.v
theories/SymFit.v
theories/SymCall.v
theories/P29_Symmetry.v
theories/Stationary.v
theories/StationarySpec.v
theories/AoStationary.v
theories/P30_Stationary.v
theories/Custom.v
theories/CustomBase.v
theories/CustomSpec.v
theories/CustomSim.v
theories/CustomFit.v
theories/CustomCalls.v
theories/CustomExample.v
theories/P31_Custom.v
theories/P32_CustomExample.v
theories/CustomTotalSpec.v
theories/CustomTotal.v
theories/P33_CustomTotal.v
theories/P34_CustomExamples.v
theories/FailSpec.v
theories/FailRun.v
theories/FailBuiltin.v
theories/FailFit.v
theories/P35_Failures.v
theories/P36_FailuresExamples.v
theories/DataConcurrent.v
theories/ConcurrentSpec.v
theories/P37_Concurrent.v
theories/LoneRun.v
theories/LoneSpec.v
theories/P38_OneMode.v
theories/TurnSpec.v
theories/TurnFacts.v
theories/TurnRun.v
theories/TurnLoop.v
theories/TurnFit.v
theories/TurnPolar.v
theories/TurnRefuse.v
theories/P39_Turned.v
theories/P40_Routines.v
theories/Gallery.v
theories/GallerySpec.v
theories/P41_Gallery.v
theories/P42_GalleryData.v
theories/P43_GalleryParts.v
theories/PenOrderSpec.v
theories/PenOrderRun.v
theories/PenOrderFit.v
theories/PenOrderFixed.v
theories/P44_PenaltyOrder.v
theories/NearSpec.v
theories/P45_Feasible.v
theories/KeywordSpec.v
theories/P46_Requests.v
theories/PadSpec.v
theories/PadFacts.v
theories/P47_Padded.v
theories/GalleryCustom.v
theories/GalleryCustomSpec.v
theories/P48_CustomData.v
theories/Repr.v
theories/ReprSpec.v
theories/P49_Printed.v
theories/TolSpec.v
theories/Tolerances.v
theories/P50_Tolerances.v
theories/RestSpec.v
theories/Rest.v
theories/RestRun.v
theories/RestPerfect.v
theories/P51_Rest.v
theories/RestPf2Spec.v
theories/RestPf2.v
theories/RestPf2Run.v
theories/P52_RestParafac2.v
theories/P53_GalleryFits.v
theories/ExplainSpec.v
theories/Explain.v
theories/P54_Explained.v
theories/EqualSpec.v
theories/P55_Equal.v
theories/ZeroSpec.v
theories/P56_Zero.v
theories/CmfRepr.v
theories/P57_Summary.v
theories/P58_NoIterations.v
theories/DefaultSpec.v
theories/P59_Defaults.v
theories/DrawSpec.v
theories/P60_Random.v
theories/P61_AsMatrix.v
theories/Fixtures.v
theories/FixtureSpec.v
theories/P62_Fixtures.v
theories/StrengthSpec.v
theories/P63_Strength.v

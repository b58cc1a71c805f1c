-Q theories Verif
theories/Base.v
theories/BaseFacts.v
theories/Cong.v
theories/Lcg64Model.v
theories/Lcg64Proofs.v
theories/Spec.v
theories/SpecFacts.v
theories/Prop_Lcg64.v
theories/CountShiftModel.v
theories/Count128Model.v
theories/CountShiftProofs.v
theories/Count128Proofs.v
theories/Prop_CountShift.v
theories/IntMathModel.v
theories/IntMathProofs.v
theories/Prop_IntMath.v
theories/Sums.v
theories/GaussModel.v
theories/GaussProofs.v
theories/Prop_Gauss.v
theories/MrgModel.v
theories/MinstdModel.v
theories/Pratt.v
theories/LinRec.v
theories/MrgStepProofs.v
theories/MrgProofs.v
theories/MrgSplitProofs.v
theories/Prop_Mrg.v
theories/Prop_Yarn.v
theories/MinstdProofs.v
theories/Prop_Minstd.v
theories/LinAlgModel.v
theories/LinAlgProofs.v
theories/Prop_LinAlg.v
theories/LagfibModel.v
theories/LagfibProofs.v
theories/Prop_Lagfib.v
theories/XoshiroModel.v
theories/XoshiroProofs.v
theories/Prop_Xoshiro.v
theories/MtModel.v
theories/MtProofs.v
theories/Prop_Mt.v
theories/Uint128Model.v
theories/Uint128Proofs.v
theories/StreamModel.v
theories/StreamProofs.v
theories/Prop_Uint128.v
theories/EngineTextModel.v
theories/EngineTextProofs.v
theories/Prop_Text.v
theories/UniformModel.v
theories/FloatFacts.v
theories/UniformProofs.v
theories/Prop_Uniform.v
theories/ArithModel.v
theories/DiscreteModel.v
theories/DiscreteProofs.v
theories/DiscreteReal.v
theories/Prop_Discrete.v
theories/SamplerProofs.v
theories/Prop_Sampler.v
theories/ContModel.v
theories/ContProofs.v
theories/Prop_Continuous.v
theories/CorrModel.v
theories/CorrProofs.v
theories/Prop_Corr.v
theories/GaussInt.v
theories/NormModel.v
theories/NormProofs.v
theories/Prop_Normal.v
theories/DistTextModel.v
theories/DistTextProofs.v
theories/Prop_DistText.v
theories/Improper.v
theories/GammaFn.v
theories/BetaFn.v
theories/GamModel.v
theories/GamProofs.v
theories/Prop_Gamma.v
theories/SeriesModel.v
theories/SeriesProofs.v
theories/Prop_Series.v
theories/NewtonModel.v
theories/NewtonProofs.v
theories/NewtonBeta.v
theories/Prop_Newton.v
theories/NewtonMaxwell.v
theories/Prop_Maxwell.v
theories/SeedModel.v
theories/Prop_Seed.v
theories/Prop_Names.v
theories/Primes.v
theories/PolyAct.v
theories/PeriodCerts.v
theories/PeriodProofs.v
theories/Prop_Period.v
theories/FieldAct.v
theories/LeapProofs.v
theories/Prop_Leap.v
theories/Gf2Act.v
theories/Gf2Certs.v
theories/Prop_XoPeriod.v
theories/LucasLehmer.v
theories/SparseAct.v
theories/PlusLift.v
theories/LagCerts.v
theories/Prop_LagPeriod.v
theories/Prop_CountPeriod.v
theories/CfFacts.v
theories/CfModel.v
theories/CfProofs.v
theories/CfTable.v
theories/Prop_Cf.v
theories/AsyModel.v
theories/AsyFacts.v
theories/AsyTable.v
theories/AsyProofs.v
theories/AsyBounds.v
theories/AsyValue.v
theories/AsyBreak.v
theories/Prop_Asy.v
theories/InvPhiModel.v
theories/InvPhiPoly.v
theories/InvPhiCentral.v
theories/InvPhiTail.v
theories/InvPhiHalley.v
theories/InvPhiProofs.v
theories/Prop_InvPhi.v
theories/NegBinModel.v
theories/NegBinProofs.v
theories/Prop_NegBin.v
theories/UnifAccProofs.v
theories/Prop_UnifAcc.v
theories/FloatDrawModel.v
theories/FloatDrawSpec.v
theories/FloatDrawProofs.v
theories/FloatDrawCore.v
theories/FloatDrawLoc.v
theories/FloatDrawTrig.v
theories/FloatDrawLaw.v
theories/FloatDrawLibm.v
theories/Prop_FloatDraw.v
theories/DiscDrawSpec.v
theories/DiscDrawProofs.v
theories/DiscDrawInt.v
theories/DiscDrawTree.v
theories/DiscDrawModel.v
theories/DiscDrawGeom.v
theories/Prop_DiscDraw.v
theories/FloatCdfModel.v
theories/FloatCdfSpec.v
theories/FloatCdfProofs.v
theories/FloatCdfCore.v
theories/FloatCdfPow.v
theories/FloatCdfLoc.v
theories/FloatCdfInv.v
theories/FloatCdfLibm.v
theories/Prop_FloatCdf.v
theories/CudaModel.v
theories/CudaProofs.v
theories/Prop_Cuda.v
theories/ExamplesModel.v
theories/ExamplesProofs.v
theories/Prop_Examples.v
theories/FloatPdfModel.v
theories/FloatPdfSpec.v
theories/FloatPdfProofs.v
theories/FloatPdfMore.v
theories/FloatPdfTail.v
theories/FloatPdfNan.v
theories/Prop_FloatPdf.v
theories/FloatNormModel.v
theories/FloatNormSpec.v
theories/FloatNormProofs.v
theories/FloatNormPdf.v
theories/FloatNormLog.v
theories/FloatNormMax.v
theories/FloatNormTail.v
theories/Prop_FloatNorm.v
theories/WolffModel.v
theories/WolffSpec.v
theories/WolffProofs.v
theories/Prop_Wolff.v
theories/FloatGeomModel.v
theories/FloatGeomSpec.v
theories/FloatGeomProofs.v
theories/Prop_FloatGeom.v
theories/FloatTruncModel.v
theories/FloatTruncSpec.v
theories/FloatTruncProofs.v
theories/Prop_FloatTrunc.v
theories/FloatDiscSpec.v
theories/FloatDiscProofs.v
theories/Prop_FloatDisc.v
theories/FloatInvReal.v
theories/FloatInvModel.v
theories/FloatInvProofs.v
theories/FloatInvStep.v
theories/FloatInvCore.v
theories/Prop_FloatInv.v
theories/FloatIcdfModel.v
theories/FloatIcdfProofs.v
theories/Prop_FloatIcdf.v

-Q theories Verif
theories/Analysis.v
theories/AnalysisBad.v
theories/AnalysisFFT.v
theories/AnalysisFocus.v
theories/AnalysisMove.v
theories/AnalysisPSF.v
theories/AnalysisProofs.v
theories/AnalysisSpec.v
theories/AplanProofs.v
theories/AplanSpec.v
theories/ArrayProofs.v
theories/ArraySpec.v
theories/Arrays.v
theories/AxialProofs.v
theories/AxialSpec.v
theories/AxialTrace.v
theories/BallProofs.v
theories/BallSpec.v
theories/Bicubic.v
theories/BicubicProofs.v
theories/Bundle.v
theories/CoordFacts.v
theories/CoordSys.v
theories/CovProofs.v
theories/DiscProofs.v
theories/DiscSpec.v
theories/DoubleZern.v
theories/Draw.v
theories/DrawProofs.v
theories/DrawSpec.v
theories/DualProofs.v
theories/DualSpec.v
theories/DualView.v
theories/EdgeProofs.v
theories/EdgeSpec.v
theories/EtendueProofs.v
theories/EtendueSpec.v
theories/Field.v
theories/FieldProofs.v
theories/FieldSpec.v
theories/Fit.v
theories/FitProofs.v
theories/FitSlopes.v
theories/FitSpec.v
theories/FlatProofs.v
theories/FlatSpec.v
theories/FloatCmp.v
theories/FloatErr.v
theories/FloatFrames.v
theories/FloatMirrors.v
theories/FloatNormal.v
theories/FloatProofs.v
theories/FloatRefract.v
theories/FloatSpec.v
theories/FloatTrace.v
theories/Fourier.v
theories/FrameProofs.v
theories/GaussLands.v
theories/GaussLimits.v
theories/GaussProofs.v
theories/GaussSpec.v
theories/GaussSurfaces.v
theories/GenLast.v
theories/GenMore.v
theories/GenProofs.v
theories/GenQuad.v
theories/GenSpec.v
theories/Grid.v
theories/GridProofs.v
theories/Heap.v
theories/HeapProofs.v
theories/HeapSpec.v
theories/ImageSpec.v
theories/ImageTrace.v
theories/InsertProofs.v
theories/IntersectMore.v
theories/IntersectProofs.v
theories/JacProofs.v
theories/JacSpec.v
theories/LinExist.v
theories/LinFit.v
theories/MalusFocus.v
theories/MalusProofs.v
theories/MalusSpec.v
theories/MediaProofs.v
theories/MediaSpec.v
theories/Medium.v
theories/MirrorProofs.v
theories/MirrorSpec.v
theories/MirrorTrace.v
theories/MoveProofs.v
theories/MoveSpec.v
theories/NameProofs.v
theories/NameSpec.v
theories/NewtonProofs.v
theories/NewtonSpec.v
theories/NormalFacts.v
theories/Num.v
theories/NumF.v
theories/NumR.v
theories/ObscProofs.v
theories/ObscSpec.v
theories/Obscuration.v
theories/Ops.v
theories/Optic.v
theories/OpticsProofs.v
theories/OpticsSpec.v
theories/Parse.v
theories/ParseLast.v
theories/ParseProofs.v
theories/ParseSpec.v
theories/ParseTree.v
theories/PathProofs.v
theories/PatternProofs.v
theories/PatternSpec.v
theories/PropertiesAnaMove.v
theories/PropertiesAnalysis.v
theories/PropertiesAplan.v
theories/PropertiesAxial.v
theories/PropertiesBall.v
theories/PropertiesBundle.v
theories/PropertiesDraw.v
theories/PropertiesDual.v
theories/PropertiesEdge.v
theories/PropertiesEq.v
theories/PropertiesEtendue.v
theories/PropertiesField.v
theories/PropertiesFit.v
theories/PropertiesFlat.v
theories/PropertiesFloat.v
theories/PropertiesFrames.v
theories/PropertiesGauss.v
theories/PropertiesGen.v
theories/PropertiesJac.v
theories/PropertiesMalus.v
theories/PropertiesMedia.v
theories/PropertiesMirror.v
theories/PropertiesMove.v
theories/PropertiesName.v
theories/PropertiesNewton.v
theories/PropertiesObsc.v
theories/PropertiesOptics.v
theories/PropertiesParse.v
theories/PropertiesPyramid.v
theories/PropertiesRev.v
theories/PropertiesScale.v
theories/PropertiesSched.v
theories/PropertiesSky.v
theories/PropertiesSplit.v
theories/PropertiesStig.v
theories/PropertiesSurf.v
theories/PropertiesTrace.v
theories/PropertiesUnits.v
theories/PropertiesZern.v
theories/PupilProofs.v
theories/PyObj.v
theories/PyProofs.v
theories/PySpec.v
theories/Pyramid.v
theories/PyramidProofs.v
theories/PyramidSpec.v
theories/Ray.v
theories/RayFacts.v
theories/RayGen.v
theories/RefractProofs.v
theories/RevProofs.v
theories/RevSpec.v
theories/RootFacts.v
theories/SamplesAnaMove.v
theories/SamplesAnalysis.v
theories/SamplesAplan.v
theories/SamplesAxial.v
theories/SamplesBall.v
theories/SamplesBundle.v
theories/SamplesDraw.v
theories/SamplesEdge.v
theories/SamplesEtendue.v
theories/SamplesFit.v
theories/SamplesFlat.v
theories/SamplesFloat.v
theories/SamplesFrames.v
theories/SamplesGauss.v
theories/SamplesJac.v
theories/SamplesLens.v
theories/SamplesMalus.v
theories/SamplesMirror.v
theories/SamplesMove.v
theories/SamplesName.v
theories/SamplesNewton.v
theories/SamplesObsc.v
theories/SamplesOptics.v
theories/SamplesParse.v
theories/SamplesPy.v
theories/SamplesRev.v
theories/SamplesScale.v
theories/SamplesSched.v
theories/SamplesSky.v
theories/SamplesSplit.v
theories/SamplesStig.v
theories/SamplesSurf.v
theories/SamplesTree.v
theories/SamplesUnits.v
theories/SamplesZern.v
theories/ScaleProofs.v
theories/ScaleSpec.v
theories/Sched.v
theories/SchedEffect.v
theories/SchedKernels.v
theories/SchedLast.v
theories/SchedProofs.v
theories/SchedSpec.v
theories/ScreenProofs.v
theories/Sky.v
theories/SkyProofs.v
theories/SkySpec.v
theories/SlopeProofs.v
theories/Spec.v
theories/SplitProofs.v
theories/SplitSpec.v
theories/StigProofs.v
theories/StigSpec.v
theories/StructProofs.v
theories/StructXR.v
theories/SurfMore.v
theories/SurfSpec.v
theories/Surface.v
theories/TreeProofs.v
theories/TreeSpec.v
theories/Trig.v
theories/UnitsProofs.v
theories/UnitsSpec.v
theories/Vec.v
theories/VertexProofs.v
theories/VignetteProofs.v
theories/Wave.v
theories/WaveProofs.v
theories/WaveSpec.v
theories/WithProofs.v
theories/XRFacts.v
theories/ZernProofs.v
theories/ZernSpec.v

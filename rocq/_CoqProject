-Q theories Verif
theories/Base.v
theories/Functional.v
theories/FunctionalProofs.v
theories/PairwiseError.v
theories/BaseQc.v
theories/BaseFl.v
theories/Spec.v
theories/Numeric.v
theories/FlFacts.v
theories/NumericProofs.v
theories/FunctionalFacts.v
theories/PropFunctional.v
theories/NumericFacts.v
theories/PropNumeric.v
theories/RangeManips.v
theories/RangeFacts.v
theories/PropRange.v
theories/Equal.v
theories/EqualFacts.v
theories/PropEqual.v
theories/Maths.v
theories/Stats.v
theories/StatsOrder.v
theories/StatsQuantile.v
theories/PropStats1.v
theories/StatsMoments.v
theories/StatsVar.v
theories/StatsVarFacts.v
theories/Histogram.v
theories/HistogramFacts.v
theories/HistogramFacts2.v
theories/Convolve.v
theories/Polynomial.v
theories/SumLib.v
theories/ConvolveFacts.v
theories/PolynomialFacts.v
theories/PolynomialField.v
theories/PolyReal.v
theories/PolyExtra.v
theories/PropPolynomial.v
theories/PropConvolve.v
theories/Fft.v
theories/FftFacts.v
theories/HammingFacts.v
theories/CplxR.v
theories/FftConv.v
theories/FftConvFacts.v
theories/PropFft.v
theories/Windows.v
theories/WindowsFacts.v
theories/WindowsReal.v
theories/WindowsRange.v
theories/PropWindows.v
theories/SpectralConc.v
theories/SpectralConcFacts.v
theories/Spectral.v
theories/SpectralSpec.v
theories/SpectralFacts.v
theories/SpectralFacts2.v
theories/SpectralFacts3.v
theories/SpectralFacts4.v
theories/SpectralFacts5.v
theories/PropSpectral.v
theories/ComplexField.v
theories/PropStats2.v
theories/PropHistogram.v
theories/Arith.v
theories/ArithFacts.v
theories/ArithFacts2.v
theories/ArithNewton.v
theories/ArithValue.v
theories/Fermat.v
theories/BigPrime.v
theories/PropArith.v
theories/Quantity.v
theories/QuantityFacts.v
theories/QuantityInt.v
theories/UnitsSpec.v
theories/DimFacts.v
theories/DimFacts2.v
theories/DimFacts3.v
theories/QuantityMaths.v
theories/PropUnits.v
theories/PropUnits2.v
theories/UnitsTable.v
theories/UnitsRef.v
theories/UnitsFacts.v
theories/PiBound.v
theories/PropUnits3.v
theories/Waveforms.v
theories/PropWaveforms.v
theories/Io.v
theories/IoSpec.v
theories/IoFacts.v
theories/IoFacts2.v
theories/IoNumber.v
theories/IoNumberFacts.v
theories/IoFacts3.v
theories/PropIo.v
theories/IoPrint.v
theories/IoPrintFacts.v
theories/PropIo2.v
theories/PropIo3.v
theories/StatsReal.v
theories/StatsRealFacts.v
theories/StatsRealFacts2.v
theories/PropStats3.v
theories/Print.v
theories/PrintSpec.v
theories/PrintFacts.v
theories/PrintFacts2.v
theories/PrintFacts3.v
theories/PrintFacts4.v
theories/PropPrint.v
theories/PolyFit.v
theories/PolyFitFacts.v
theories/PropPolyFit.v
theories/Misc.v
theories/MiscFacts.v
theories/FmodExact.v
theories/PropMisc.v
theories/Plots.v
theories/PlotsFacts.v
theories/PropPlots.v
theories/Plots2.v
theories/Plots2Facts.v
theories/PropPlots2.v
theories/Binning.v
theories/BinningFacts.v
theories/BinningFacts2.v
theories/BinningFacts3.v
theories/PropBinning.v
theories/Vectorize.v
theories/PropVectorize.v
theories/QuantityCplx.v
theories/PropQtyCplx.v
theories/Constants.v
theories/ConstFacts.v
theories/ConstFacts2.v
theories/ConstFacts3.v
theories/PropConstants.v
theories/FixedSize.v
theories/FixedSizeFacts.v
theories/PropFixedSize.v
theories/QuantityState.v
theories/PropQuantityState.v
theories/ArrayExpr.v
theories/ArrayExprFacts.v
theories/PropArrayExpr.v
theories/CompareArgs.v
theories/PropCompareArgs.v
theories/StatsNan.v
theories/StatsNanFacts.v
theories/PropStatsNan.v
theories/FloatStats.v
theories/PropFloatStats.v
theories/FloatArith.v
theories/FloatArithFacts.v
theories/FloatConvFacts.v
theories/FloatRangeFacts.v
theories/PropFloatArith.v
theories/FloatQuantile.v
theories/FloatQuantileFacts.v
theories/PropFloatQuantile.v
theories/FloatVar.v
theories/FloatVarFacts.v
theories/FloatCovFacts.v
theories/PropFloatVar.v
theories/FloatWindows.v
theories/FloatWindowsFacts.v
theories/PropFloatWindows.v
theories/FloatUnits.v
theories/FloatUnitsFacts.v
theories/PropFloatUnits.v
theories/PropFloatCov.v
theories/FloatPoly.v
theories/FloatPolyFacts.v
theories/PropFloatPoly.v
theories/PropExtra.v
theories/PropExtra2.v
theories/PropExtra3.v
theories/PolyObjects.v
theories/PolyObjectsFacts.v
theories/PropPolyObjects.v
theories/FloatSpectral.v
theories/FloatSpectralFacts.v
theories/FloatSpectralErr.v
theories/SchedFacts.v
theories/FloatSpectralSelf.v
theories/FloatSpectralRatio.v
theories/ToneFacts.v
theories/PropTone.v
theories/PropFloatSpectral.v
theories/PropFloatFreq.v
theories/IoSyntax.v
theories/PropIo4.v
theories/MathConstFacts.v
theories/PropMathConst.v
theories/RescaleFacts.v
theories/PropRescale.v
theories/SpectralMixed.v
theories/SpectralMixedFacts.v
theories/PropSpectralMixed.v
theories/PropFloatEnbw.v
theories/PropFloatHist.v
theories/PropFloatMeans.v
theories/PropFloatSaw.v

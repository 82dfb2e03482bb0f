-Q theories Verif
theories/Num.v
theories/NumFacts.v
theories/Np.v
theories/Utils.v
theories/Spec.v
theories/UtilsFacts.v
theories/Strain.v
theories/DetectorFacts.v
theories/Evol.v
theories/EvolSpec.v
theories/NpFacts.v
theories/EvolFacts.v
theories/MergeFacts.v
theories/OdeFacts.v
theories/ArrEvolFacts.v
theories/CircFacts.v
theories/EccEvolFacts.v
theories/LocalFacts.v
theories/EvolThms.v
theories/OdeintFacts.v
theories/StrainSpec.v
theories/StrainFacts.v
theories/Psd.v
theories/ArgFacts.v
theories/PsdSpec.v
theories/PsdFacts.v
theories/PsdThms.v
theories/Snr.v
theories/SnrSpec.v
theories/SnrFacts.v
theories/ScaleFacts.v
theories/SnrThms.v
theories/SnrThms2.v
theories/SnrThms3.v
theories/SnrThms4.v
theories/PositiveFacts.v
theories/Interp.v
theories/Harmonics.v
theories/InterpFacts.v
theories/HarmSpec.v
theories/HarmFacts.v
theories/HarmThms.v
theories/ScParams.v
theories/Source.v
theories/Index.v
theories/SourceSpec.v
theories/History.v
theories/CurveSpec.v
theories/CurveFacts.v
theories/Toy.v
theories/CurveThms.v
theories/IndexSpec.v
theories/IndexFacts.v
theories/IndexThms.v
theories/SourceFacts.v
theories/MethodSpec.v
theories/MethodFacts.v
theories/MethodThms.v
theories/SourceThms.v
theories/SourceThms2.v
theories/InitSpec.v
theories/InitFacts.v
theories/EvolveSpec.v
theories/EvolveFacts.v
theories/EvolveThms.v
theories/Toy2.v
theories/Toy3.v
theories/Bessel.v
theories/BesselFacts.v
theories/PosCheck.v
theories/AccuracyFacts.v
theories/AccuracySpec.v
theories/FitFacts.v
theories/AccuracyThms.v
theories/OrbitSpec.v
theories/OrbitFacts.v
theories/TightSpec.v
theories/TightThms.v
theories/FileIO.v
theories/FileNames.v
theories/Verification.v
theories/FileSpec.v
theories/FileFacts.v
theories/ReachFacts.v
theories/FileThms.v
theories/ToyFile.v
theories/PropUtils.v
theories/PropEvol.v
theories/PropStrain.v
theories/PropPsd.v
theories/PropSnr.v
theories/PropHarm.v
theories/PropCurve.v
theories/PropIndex.v
theories/PropSource.v
theories/PropEvolve.v
theories/PropAccuracy.v
theories/PropFile.v
theories/VerificationSpec.v
theories/VerificationData.v
theories/VerificationFacts.v
theories/VerificationThms.v
theories/PropVerification.v
theories/Vis.v
theories/VisSpec.v
theories/VisFacts.v
theories/ToyVis.v
theories/PropVis.v
theories/Style.v
theories/StyleSpec.v
theories/StyleFacts.v
theories/PropStyle.v
theories/Logging.v
theories/LoggingSpec.v
theories/LoggingFacts.v
theories/Messages.v
theories/MessagesFacts.v
theories/PropLogging.v
theories/World.v
theories/WorldSpec.v
theories/WorldFacts.v
theories/WorldThms.v
theories/WorldSim.v
theories/WorldSteps.v
theories/WorldEvents.v
theories/WorldProofs.v
theories/WorldCopy.v
theories/WorldShare.v
theories/ToyWorld.v
theories/PropWorld.v
theories/Units.v
theories/UnitsSpec.v
theories/UnitsFacts.v
theories/UnitsThms.v
theories/UnitsWrong.v
theories/UnitsStrain.v
theories/PropUnits.v
theories/SkySpec.v
theories/SkyThms.v
theories/PropSky.v
theories/DrawsSpec.v
theories/DrawsThms.v
theories/DrawsToy.v
theories/PropDraws.v
theories/UnitsEvol.v
theories/UnitsEvolSpec.v
theories/UnitsEvolFacts.v
theories/UnitsEvolThms.v
theories/UnitsEvolRuns.v
theories/UnitsEccRuns.v
theories/UnitsMarker.v
theories/UnitsTimes.v
theories/UnitsEvolWrong.v
theories/UnitsPsd.v
theories/UnitsPsdSpec.v
theories/UnitsPsdFacts.v
theories/UnitsPsdWrong.v
theories/UnitsPsdThms.v
theories/PropUnitsPsd.v
theories/PropUnitsSnr.v
theories/UnitsSnr.v
theories/UnitsSnrSpec.v
theories/UnitsSnrFacts.v
theories/UnitsSnrEvol.v
theories/UnitsSnrEcc.v
theories/UnitsSnrWrong.v
theories/UnitsSnrThms.v
theories/PropUnitsEvol.v
theories/UnitsSource.v
theories/UnitsSourceSpec.v
theories/UnitsSourceParams.v
theories/UnitsSourceFacts.v
theories/UnitsSourceSnr.v
theories/UnitsSourceEvol.v
theories/UnitsSourceThms.v
theories/UnitsSourceKeep.v
theories/UnitsSourceToy.v
theories/PropUnitsSource.v
theories/UnitsSourceWrong.v
theories/PropUnitsWrong.v
theories/VisAxes.v
theories/VisAxesSpec.v
theories/VisAxesFacts.v
theories/VisAxesThms.v
theories/PropAxes.v
theories/Float.v
theories/FloatSpec.v
theories/FloatFacts.v
theories/FloatThms.v
theories/FloatSum.v
theories/FloatIEEE.v
theories/FloatNoise.v
theories/FloatEvol.v
theories/PropFloat.v
theories/Words.v
theories/WordsFacts.v
theories/PropWords.v
theories/SplineSpec.v
theories/SplineFacts.v
theories/ResponseData.v
theories/ResponseCert.v
theories/ResponseFacts.v
theories/ResponseThms.v
theories/AgreeFacts.v
theories/ConvSpec.v
theories/ConvFacts.v
theories/PropResponse.v
theories/PropAgree.v
theories/NoiseContFacts.v
theories/PropCont.v
theories/PropConv.v
theories/FourierFacts.v
theories/ParsevalFacts.v
theories/ParsevalThms.v
theories/ParsevalStrain.v
theories/BesselPositive.v
theories/SumSpec.v
theories/HarmonicSums.v
theories/PropParseval.v
theories/ShareFacts.v
theories/BesselBounds.v
theories/PropShare.v
theories/ZeroFacts.v
theories/PropZero.v
theories/MonoFacts.v
theories/PropMono.v
theories/FloatStat.v
theories/FloatStatFacts.v
theories/PropFloatStat.v
theories/GeomFacts.v
theories/PropGeom.v
theories/SwapSpec.v
theories/SwapFacts.v
theories/SwapThms.v
theories/PropSwap.v
theories/KeysFacts.v
theories/GeomSnr.v
theories/SwapIndex.v
theories/FloatStatMass.v
theories/FloatMerge.v
theories/FloatMergeFacts.v
theories/JumpFacts.v
theories/LongerSpec.v
theories/LongerFacts.v
theories/LongerSnr.v
theories/LongerJump.v
theories/LongerHuang.v
theories/PropLonger.v
theories/ReadsSpec.v
theories/ReadsFacts.v
theories/StickyToy.v
theories/UnitsSnrTime.v

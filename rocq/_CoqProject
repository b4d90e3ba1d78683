-Q theories Verif

theories/DateModel.v
theories/DateSpec.v
theories/DateRepr.v
theories/DayCountModel.v
theories/DateProofs.v
theories/DateProofs2.v
theories/DayCountProofs.v
theories/PropsDateAux.v
theories/PropsDate.v
theories/CalSpec.v
theories/BoundedCalModel.v
theories/UnboundedCalModel.v
theories/CalSetup.v
theories/CalProofs.v
theories/CalModified.v
theories/BoundedCalProofs.v
theories/BoundedCalProofs2.v
theories/UnboundedCalProofs.v
theories/UnboundedCalProofs2.v
theories/PropsCalAux.v
theories/PropsCal.v
theories/ScheduleModel.v
theories/ScheduleSpec.v
theories/ScheduleProofs.v
theories/ScheduleProofs2.v
theories/ScheduleProofs3.v
theories/ScheduleProofs4.v
theories/PropsSchedule.v
theories/TensorModel.v
theories/TensorProofs.v
theories/RIntAux.v
theories/SegmentModel.v
theories/SegmentSpec.v
theories/SegmentProofs.v
theories/PropsSegment.v
theories/PiecewiseModel.v
theories/PiecewiseProofs.v
theories/PropsPiecewise.v
theories/InterpModel.v
theories/LinearProofs.v
theories/PropsLinear.v
theories/CubicSpec.v
theories/CubicProofs.v
theories/PropsCubic.v
theories/ShapeModel.v
theories/ShapeProofs.v
theories/PropsShape.v
theories/PadModel.v
theories/PadProofs.v
theories/PropsPad.v
theories/LoopModel.v
theories/LoopProofs.v
theories/PropsLoop.v
theories/SobolModel.v
theories/SobolSpec.v
theories/SobolData.v
theories/SobolProofs.v
theories/SobolProofs2.v
theories/PropsSobol.v
theories/HaltonData.v
theories/HaltonSpec.v
theories/HaltonModel.v
theories/HaltonProofs.v
theories/HaltonProofs2.v
theories/PropsHalton.v
theories/PropsLattice.v
theories/BrentModel.v
theories/BrentProofs.v
theories/BrentProofs2.v
theories/PropsBrent.v
theories/ExtReal.v
theories/NewtonModel.v
theories/NewtonProofs.v
theories/PropsNewton.v
theories/IntegrateModel.v
theories/PolySpec.v
theories/SimpsonProofs.v
theories/PropsSimpson.v
theories/GaussData.v
theories/GaussProofs.v
theories/GaussTables.v
theories/PropsGauss.v
theories/KronrodModel.v
theories/KronrodTables.v
theories/KronrodSpec.v
theories/KronrodProofs.v
theories/PropsKronrod.v
theories/RatesModel.v
theories/CashflowSpec.v
theories/CashflowProofs.v
theories/PropsCashflows.v
theories/PropsForwards.v
theories/SwapSpec.v
theories/PropsSwap.v
theories/PropsConstFwd.v
theories/PropsSvensson.v
theories/HaganWestModel.v
theories/HaganWestSpec.v
theories/HaganWestProofs.v
theories/HaganWestProofs2.v
theories/PropsHaganWest.v
theories/BootstrapModel.v
theories/BootstrapSpec.v
theories/BootstrapProofs.v
theories/PropsBootstrap.v
theories/GaussianAux.v
theories/BlackScholesModel.v
theories/BlackScholesSpec.v
theories/NormalProofs.v
theories/BlackScholesProofs.v
theories/PropsBlackScholes.v
theories/BarrierModel.v
theories/BarrierSpec.v
theories/BarrierProofs.v
theories/PropsBarrier.v
theories/BinomialModel.v
theories/BinomialSpec.v
theories/BinomialProofs.v
theories/PropsBinomial.v
theories/BridgeModel.v
theories/BridgeSpec.v
theories/PropsBridge.v
theories/VarianceModel.v
theories/VarianceSpec.v
theories/VarianceProofs.v
theories/PropsVariance.v
theories/TimeGridModel.v
theories/TimeGridSpec.v
theories/TimeGridProofs.v
theories/PropsTimeGrid.v
theories/EulerModel.v
theories/EulerSpec.v
theories/PropsEuler.v
theories/LsmModel.v
theories/LsmSpec.v
theories/PropsLsm.v
theories/RealizedModel.v
theories/RealizedSpec.v
theories/PropsRealized.v
theories/PdeGridModel.v
theories/PdeGridSpec.v
theories/PropsPdeGrid.v
theories/PdeStepModel.v
theories/PdeStepSpec.v
theories/PdeStepView.v
theories/PdeStepProofs.v
theories/PdeRowProofs.v
theories/PropsPdeStep.v
theories/PdeSolveModel.v
theories/PdeSolveView.v
theories/PropsPdeSolve.v
theories/ImpliedVolModel.v
theories/ImpliedVolSpec.v
theories/ImpliedVolProofs.v
theories/ImpliedVolProofs2.v
theories/PropsImpliedVol.v
theories/GaussConv.v
theories/AsianModel.v
theories/AsianSpec.v
theories/AsianProofs.v
theories/PropsAsian.v
theories/MvNormalModel.v
theories/MvNormalSpec.v
theories/MvNormalProofs.v
theories/MvSobol.v
theories/PropsMvNormal.v
theories/GbmModel.v
theories/GbmProofs.v
theories/PropsMc.v
theories/GbmSpec.v
theories/GbmProofs2.v
theories/PropsGbm.v
theories/SabrModel.v
theories/SabrSpec.v
theories/SabrProofs.v
theories/PropsSabr.v
theories/SviModel.v
theories/PropsSvi.v
theories/HullWhiteModel.v
theories/HullWhiteSpec.v
theories/HullWhiteProofs.v
theories/HullWhiteProofs2.v
theories/PropsHullWhite.v
theories/HullWhiteBondSpec.v
theories/HullWhiteBondProofs.v
theories/PropsHullWhiteBond.v
theories/HullWhiteOptionModel.v
theories/PropsHullWhiteOption.v
theories/Interp2dModel.v
theories/PropsInterp2d.v
theories/MilsteinModel.v
theories/MilsteinSpec.v
theories/PropsMilstein.v
theories/JoinedModel.v
theories/PropsJoined.v
theories/InstrumentModel.v
theories/InstrumentSpec.v
theories/InstrumentProofs.v
theories/PropsInstrument.v
theories/PropsInstrument2.v
theories/AmericanModel.v
theories/AmericanSpec.v
theories/AmericanProofs.v
theories/AmericanProofs2.v
theories/AmericanProofs3.v
theories/AmericanProofs4.v
theories/PropsAmerican.v
theories/HestonModel.v
theories/HestonSpec.v
theories/HestonProofs.v
theories/HestonProofs2.v
theories/HestonProofs3.v
theories/PropsHeston.v
theories/RandomProg.v
theories/CirModel.v
theories/CirSpec.v
theories/CirProofs.v
theories/CirProofs2.v
theories/PropsCir.v
theories/HwSwaptionModel.v
theories/HwSwaptionSpec.v
theories/HwSwaptionProofs.v
theories/PropsHwSwaption.v
theories/AdiModel.v
theories/AdiSpec.v
theories/AdiView.v
theories/AdiProofs.v
theories/PropsAdi.v
theories/HjmModel.v
theories/HjmSpec.v
theories/HjmProofs.v
theories/HjmProofs2.v
theories/PropsHjm.v
theories/HjmQuasiModel.v
theories/HjmQuasiSpec.v
theories/HjmQuasiProofs.v
theories/PropsHjmQuasi.v
theories/HjmPricingModel.v
theories/HjmPricingSpec.v
theories/HjmPricingProofs.v
theories/PropsHjmPricing.v
theories/ItoPdeModel.v
theories/ItoPdeSpec.v
theories/ItoPdeProofs.v
theories/PropsItoPde.v
theories/PdeMonotoneSpec.v
theories/PdeMonotoneProofs.v
theories/PropsPdeMonotone.v
theories/CgModel.v
theories/CgSpec.v
theories/CgProofs.v
theories/PropsCg.v
theories/SwapFitModel.v
theories/SwapFitSpec.v
theories/SwapFitProofs.v
theories/PropsSwapFit.v
theories/SabrPathModel.v
theories/SabrPathSpec.v
theories/SabrPathProofs.v
theories/PropsSabrPath.v
theories/CapFloorModel.v
theories/CapFloorSpec.v
theories/CapFloorProofs.v
theories/PropsCapFloor.v
theories/HestonFourierModel.v
theories/HestonFourierSpec.v
theories/DirichletProofs.v
theories/ComplexProofs.v
theories/HestonFourierProofs.v
theories/PropsHestonFourier.v
theories/PropsHestonFourier2.v
theories/FuturesModel.v
theories/FuturesSpec.v
theories/FuturesProofs.v
theories/PropsFutures.v
theories/DateTensorModel.v
theories/DateTensorSpec.v
theories/DateTensorProofs.v
theories/PropsDateTensor.v
theories/CalibrationModel.v
theories/CalibrationSpec.v
theories/CalibrationProofs.v
theories/PropsCalibration.v
theories/PropsCalibration2.v
theories/PropsCalibration3.v
theories/CmsModel.v
theories/CmsSpec.v
theories/CmsProofs.v
theories/PropsCms.v
theories/PropsCms2.v
theories/LocalVolModel.v
theories/LocalVolSpec.v
theories/LocalVolProofs.v
theories/PropsLocalVol.v
theories/PropsLocalVol2.v
theories/PlatformModel.v
theories/PlatformSpec.v
theories/PlatformProofs.v
theories/PropsPlatform.v
theories/PropsPlatform2.v
theories/PropsPlatform3.v
theories/BatchModel.v
theories/BatchSpec.v
theories/BatchProofs.v
theories/PropsBatch.v
theories/PropsBatch2.v
theories/EquityOptionModel.v
theories/EquityOptionSpec.v
theories/EquityOptionProofs.v
theories/PropsEquityOption.v
theories/PropsEquityOption2.v
theories/LegacyBmModel.v
theories/LegacyBmSpec.v
theories/LegacyBmProofs.v
theories/PropsLegacyBm.v
theories/PropsLegacyBm2.v
theories/FdMethodsModel.v
theories/FdMethodsSpec.v
theories/FdMethodsProofs.v
theories/FdMethodsProofs2.v
theories/PropsFdMethods.v
theories/PropsFdMethods2.v
theories/AndersenLakeModel.v
theories/AndersenLakeSpec.v
theories/AndersenLakeProofs.v
theories/AndersenLakeProofs2.v
theories/PropsAndersenLake.v
theories/ArrayIoModel.v
theories/ArrayIoSpec.v
theories/PropsArrayIo.v
theories/LegacyLsmModel.v
theories/LegacyLsmProofs.v
theories/PropsLegacyLsm.v
theories/NestedModel.v
theories/NestedSpec.v
theories/PropsNested.v
theories/VolSurfaceModel.v
theories/PropsVolSurface.v
theories/HestonAsianModel.v
theories/HestonAsianProofs.v
theories/HestonAsianForward.v
theories/PropsHestonAsian.v
theories/LsvModel.v
theories/LsvSpec.v
theories/PropsLsv.v

-Q theories Verif
theories/Base.v
theories/Matrix.v
theories/MatrixSpec.v
theories/MatrixProofs.v
theories/Scalars.v
theories/PropsMatrix.v
theories/Kalman.v
theories/KalmanSpec.v
theories/KalmanProofs.v
theories/PropsKalman.v
theories/FixedPoint.v
theories/FixedSpec.v
theories/FixedProofs.v
theories/PropsFixed.v
theories/FixedIEEE.v
theories/PropsFixedIEEE.v
theories/Biquad.v
theories/BiquadSpec.v
theories/BiquadProofs.v
theories/BiquadStability.v
theories/PropsBiquad.v
theories/Cascade.v
theories/CascadeSpec.v
theories/CascadeProofs.v
theories/CascadeSteady.v
theories/PropsCascade.v
theories/OnePole.v
theories/Design.v
theories/DesignSpec.v
theories/DesignProofs.v
theories/PropsDesign.v
theories/OnePoleProofs.v
theories/PropsOnePole.v
theories/Chebyshev.v
theories/ChebyshevSpec.v
theories/ChebProduct.v
theories/ChebyshevProofs.v
theories/ChebyshevDesign.v
theories/PropsChebyshev.v
theories/Range.v
theories/RangeSpec.v
theories/RangeProofs.v
theories/PropsRange.v
theories/Text.v
theories/Algorithm.v
theories/Limits.v
theories/PropsCore.v
theories/Register.v
theories/RegisterSpec.v
theories/RegisterProofs.v
theories/PropsRegister.v
theories/AtmegaRegs.v
theories/Atmega.v
theories/AtmegaSpec.v
theories/AtmegaProofs.v
theories/PropsAtmega.v
theories/PropsSettings.v
theories/PropsBoard.v
theories/Interrupt.v
theories/InterruptSpec.v
theories/PropsInterrupt.v
theories/Twi.v
theories/TwiSpec.v
theories/PropsTwi.v
theories/AdcDac.v
theories/PropsAdcDac.v
theories/PropsProgram.v
theories/StochasticSpec.v
theories/StochasticProofs.v
theories/PropsStochastic.v
theories/PropsRiccati.v
theories/KalmanSim.v
theories/PropsKalmanSim.v
theories/AtmegaSheet.v
theories/PropsSheet.v
theories/AvrExamples.v
theories/PropsAvrExamples.v
theories/Ieee.v
theories/RoundingSpec.v
theories/RoundingProofs.v
theories/IeeeProofs.v
theories/PropsRounding.v
theories/PropsRoundingCascade.v
theories/KalmanIeee.v
theories/PropsIeeeKalman.v
theories/PropsCovariance.v
theories/PropsMatrixRounding.v
theories/Output.v
theories/OutputSpec.v
theories/OutputProofs.v
theories/PropsOutput.v
theories/PropsOutputSim.v
theories/RangeFloat.v
theories/PropsRangeFloat.v
theories/ConvergenceSpec.v
theories/ConvergenceProofs.v
theories/PropsConvergence.v
theories/FixedRep.v
theories/PropsFixedRep.v
theories/RepoTests.v
theories/Matlab.v
theories/PropsMatlab.v
theories/PolyPositive.v
theories/FilterPrograms.v
theories/PropsFilterPrograms.v
theories/PropsFilterExamples.v
theories/FixedFloat.v
theories/FixedFloatSpec.v
theories/FixedFloatProofs.v
theories/PropsFixedFloat.v
theories/ConstantProofs.v
theories/TimeProgram.v
theories/PropsTime.v
theories/SimRoundingSpec.v
theories/SimRoundingProofs.v
theories/PropsSimRounding.v
theories/FixedSim.v
theories/FixedSimSpec.v
theories/FixedSimBounds.v
theories/FixedSimProofs.v
theories/PropsFixedSim.v
theories/PropsRecorded.v
theories/TypeTraits.v
theories/TypeTraitsSpec.v
theories/PropsTypeTraits.v
theories/DesignIeee.v
theories/DesignRoundingSpec.v
theories/DesignRoundingProofs.v
theories/DesignRoundingProofs2.v
theories/PropsDesignRounding.v
theories/Include.v
theories/IncludeSpec.v
theories/IncludeProofs.v
theories/PropsInclude.v
theories/ShelfIeee.v
theories/ShelfSpec.v
theories/ShelfProofs.v
theories/ShelfProofs2.v
theories/PropsShelf.v
theories/PolesIeee.v
theories/PolesSpec.v
theories/PolesReal.v
theories/PolesProofs.v
theories/PolesProofs2.v
theories/PolesProofs3.v
theories/PropsPoles.v
theories/PropsIntMatrix.v
theories/InitList.v
theories/PropsInitList.v
theories/CovText.v
theories/PropsCovText.v
theories/AvrComplex.v
theories/PropsAvrComplex.v
theories/ExampleText.v
theories/PropsExampleText.v
theories/Constants.v
theories/PropsConstants.v

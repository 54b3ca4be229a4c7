-Q theories Verif
theories/ZLib.v
theories/Csum.v
theories/DFT.v
theories/NumPy.v
theories/Interp.v
theories/Spec.v
theories/InterpProofs.v
theories/InterpProofs2.v
theories/Index.v
theories/IndexProofs.v
theories/AxesProofs.v
theories/SpecReal.v
theories/Lattice.v
theories/LatticeProofs.v
theories/Basis.v
theories/SpecBasis.v
theories/BasisProofs.v
theories/BasisProofs2.v
theories/BasisProofs3.v
theories/BasisFacts.v
theories/Operator.v
theories/SpecOperator.v
theories/OperatorProofs.v
theories/OperatorProofs2.v
theories/OperatorProofs3.v
theories/OperatorFacts.v
theories/Reduce.v
theories/SpecReduce.v
theories/ReduceProofs.v
theories/ReduceProofs2.v
theories/Kernel.v
theories/SpecKernel.v
theories/KernelProofs.v
theories/KernelProofs2.v
theories/KernelProofs3.v
theories/KernelProofs4.v
theories/KernelProofs5.v
theories/KernelFacts.v
theories/Cache.v
theories/SpecCache.v
theories/CacheProofs.v
theories/CacheProofs2.v
theories/IndexSum.v
theories/Wavepacket.v
theories/SpecWavepacket.v
theories/WavepacketProofs.v
theories/WavepacketProofs2.v
theories/WavepacketProofs3.v
theories/WavepacketFacts.v
theories/Localize.v
theories/SpecMatrix.v
theories/LinAlg.v
theories/Polar.v
theories/SpecLocalize.v
theories/Spectral.v
theories/Spectral2.v
theories/Spectral3.v
theories/LocalizeProofs.v
theories/LocalizeProofs2.v
theories/LocalizeFacts.v
theories/LocalizeProofs3.v
theories/LocalizeProofs4.v
theories/LocalizeProofs5.v
theories/LocalizeProofs6.v
theories/LocalizeFacts2.v
theories/LocalizeProofs7.v
theories/Hamiltonian.v
theories/SpecHamiltonian.v
theories/HamiltonianProofs.v
theories/HamiltonianProofs2.v
theories/HamiltonianProofs3.v
theories/HamiltonianProofs4.v
theories/HamiltonianFacts.v
theories/Dynamics.v
theories/SpecDynamics.v
theories/DynamicsProofs.v
theories/DynamicsProofs2.v
theories/DynamicsProofs3.v
theories/DynamicsProofs4.v
theories/DynamicsProofs5.v
theories/DynamicsProofs6.v
theories/DynamicsProofs7.v
theories/DynamicsProofs8.v
theories/DynamicsFacts.v
theories/Brillouin.v
theories/SpecBrillouin.v
theories/BrillouinProofs.v
theories/BrillouinFacts.v
theories/Oscillator.v
theories/GaussianIntegral.v
theories/SpecOscillator.v
theories/OscillatorProofs.v
theories/OscillatorProofs2.v
theories/OscillatorFacts.v
theories/Generator.v
theories/SpecGenerator.v
theories/GeneratorProofs.v
theories/GeneratorProofs2.v
theories/GeneratorProofs3.v
theories/GeneratorProofs4.v
theories/GeneratorProofs5.v
theories/GeneratorProofs6.v
theories/GeneratorFacts.v
theories/GeneratorFacts2.v
theories/Fourier.v
theories/SpecFourier.v
theories/FourierProofs.v
theories/FourierProofs2.v
theories/FourierProofs3.v
theories/FourierProofs4.v
theories/FourierFacts.v
theories/Taylor.v
theories/SpecTaylor.v
theories/TaylorProofs.v
theories/TaylorProofs2.v
theories/TaylorProofs3.v
theories/TaylorProofs4.v
theories/TaylorProofs5.v
theories/ChebyshevProofs.v
theories/ChebyshevProofs2.v
theories/ChebyshevProofs3.v
theories/TaylorFacts.v
theories/Sample.v
theories/SpecSample.v
theories/SampleProofs.v
theories/SampleProofs2.v
theories/Correlation.v
theories/SpecCorrelation.v
theories/CorrelationProofs.v
theories/CorrelationProofs2.v
theories/CorrelationProofs3.v
theories/CorrelationProofs4.v
theories/KernelConvert.v
theories/SpecKernelConvert.v
theories/KernelConvertProofs.v
theories/KernelConvertProofs2.v
theories/KernelConvertFacts.v
theories/Wannier.v
theories/SpecWannier.v
theories/WannierProofs.v
theories/WannierProofs2.v
theories/WannierProofs3.v
theories/WannierProofs4.v
theories/WannierProofs5.v
theories/WannierProofs6.v
theories/WannierFacts.v
theories/Overlap.v
theories/SpecOverlap.v
theories/OverlapProofs.v
theories/OverlapProofs2.v
theories/OverlapProofs3.v
theories/OverlapProofs4.v
theories/OverlapFacts.v
theories/StateList.v
theories/SpecStateList.v
theories/StateListProofs.v
theories/StateListProofs2.v
theories/StateListProofs3.v
theories/StateListFacts.v
theories/SeedStates.v
theories/SpecSeed.v
theories/SeedProofs.v
theories/SeedProofs2.v
theories/SeedProofs3.v
theories/SeedProofs4.v
theories/SeedFacts.v
theories/GammaIntegral.v
theories/SpecGamma.v
theories/GammaProofs.v
theories/GammaProofs2.v
theories/GammaProofs3.v
theories/GammaProofs4.v
theories/GammaFacts.v
theories/SelectProofs.v
theories/TimeBasis.v
theories/TimeProofs.v
theories/LocalizedSSE.v
theories/SpecLocalized.v
theories/LocalizedProofs.v
theories/LocalizedProofs2.v
theories/LocalizedFacts.v
theories/Trajectory.v
theories/SpecTrajectory.v
theories/TrajectoryProofs.v
theories/TrajectoryProofs2.v
theories/TrajectoryFacts.v
theories/Observables.v
theories/SpecObservables.v
theories/ObservablesProofs.v
theories/ObservablesProofs2.v
theories/ObservablesProofs3.v
theories/ObservablesProofs4.v
theories/ObservablesProofs5.v
theories/ObservablesProofs6.v
theories/ObservablesProofs7.v
theories/ObservablesFacts.v
theories/Paths.v
theories/SpecPaths.v
theories/PathsProofs.v
theories/PathsProofs2.v
theories/PathsProofs3.v
theories/PathsFacts.v
theories/BlochBasis.v
theories/SpecBloch.v
theories/BlochProofs.v
theories/BlochProofs2.v
theories/BlochProofs3.v
theories/BlochFacts.v
theories/BlochEnergies.v
theories/SpecBlochEnergy.v
theories/BlochEnergyProofs.v
theories/BlochEnergyProofs2.v
theories/BlochEnergyFacts.v
theories/TightCell.v
theories/SpecTightCell.v
theories/TightCellProofs.v
theories/TightCellProofs2.v
theories/TightCellProofs3.v
theories/TightCellFacts.v
theories/Projections.v
theories/SpecProjections.v
theories/ProjectionsProofs.v
theories/ProjectionsProofs2.v
theories/ProjectionsProofs3.v
theories/ProjectionsFacts.v
theories/TwoPoint.v
theories/SpecTwoPoint.v
theories/TwoPointProofs.v
theories/TwoPointProofs2.v
theories/TwoPointFacts.v
theories/StateInterp.v
theories/SpecStateInterp.v
theories/StateInterpProofs.v
theories/StateInterpFacts.v
theories/EigenBasis.v
theories/SpecEigenBasis.v
theories/EigenBasisProofs.v
theories/EigenBasisFacts.v
theories/Uneven.v
theories/SpecUneven.v
theories/UnevenProofs.v
theories/UnevenProofs2.v
theories/UnevenFacts.v
theories/Incoherent.v
theories/SpecIncoherent.v
theories/IncoherentProofs.v
theories/IncoherentFacts.v
theories/IsfFits.v
theories/SpecIsfFits.v
theories/IsfFitsProofs.v
theories/IsfFitsFacts.v
theories/SseSolve.v
theories/SpecSseSolve.v
theories/SseSolveProofs.v
theories/SseSolveFacts.v
theories/SseSolveFacts2.v
theories/WannierBasis.v
theories/SpecWannierBasis.v
theories/WannierBasisProofs.v
theories/WannierBasisFacts.v
theories/WannierBasisFacts2.v
theories/WannierBasisFacts3.v
theories/VolumeBasis.v
theories/SpecVolumeBasis.v
theories/VolumeBasisProofs.v
theories/VolumeBasisFacts.v
theories/ProbConvert.v
theories/SpecProbConvert.v
theories/ProbConvertProofs.v
theories/ProbConvertFacts.v
theories/WaveLists.v
theories/SpecWaveLists.v
theories/WaveListsProofs.v
theories/WaveListsFacts.v
theories/WannierWin.v
theories/SpecWannierWin.v
theories/WannierWinProofs.v
theories/WannierWinFacts.v
theories/WannierWinFacts2.v
theories/WannierWinFacts3.v
theories/NoiseBuild.v
theories/SpecNoiseBuild.v
theories/NoiseBuildProofs.v
theories/NoiseBuildFacts.v
theories/NoiseBuildFacts2.v
theories/NoiseBuildFacts3.v
theories/NoiseBuildFacts4.v
theories/NoiseBuildFacts5.v
theories/BandsBasis.v
theories/BandsBasisProofs.v
theories/Sites.v
theories/SpecSites.v
theories/SitesProofs.v
theories/Plots.v
theories/SpecPlots.v
theories/PlotsProofs.v
theories/PlotsProofs2.v
theories/PlotsProofs3.v
theories/PlotsProofs4.v
theories/PlotsProofs5.v
theories/PlotsFacts.v
theories/SpecIsfFits2.v
theories/IsfFitsFacts2.v
theories/EffectiveMass.v
theories/SpecEffectiveMass.v
theories/EffectiveMassProofs.v
theories/EffectiveMassProofs2.v
theories/EffectiveMassFacts.v
theories/EffectiveMassFacts2.v
theories/ValuePlots.v
theories/ValuePlotsProofs.v
theories/ValuePlotsFacts.v
theories/SpecOccupation.v
theories/Occupation.v
theories/OccupationProofs.v
theories/OccupationProofs2.v
theories/OccupationProofs3.v
theories/OccupationFacts.v
theories/ShoSubtracted.v
theories/ShoSubtractedProofs.v
theories/ShoSubtractedFacts.v
theories/KernelPlots.v
theories/KernelPlotsProofs.v
theories/KernelPlotsProofs2.v
theories/SpecKernelPlots.v
theories/KernelPlotsFacts.v
theories/KernelPlotsFacts2.v
theories/PathPlots.v
theories/SpecPathPlots.v
theories/PathPlotsProofs.v
theories/PathPlotsFacts.v
theories/StackedPlots.v
theories/SpecStackedPlots.v
theories/StackedPlotsProofs.v
theories/StackedPlotsProofs2.v
theories/StackedPlotsFacts.v
theories/EnergyPlots.v
theories/SpecEnergyPlots.v
theories/EnergyPlotsProofs.v
theories/EnergyPlotsProofs2.v
theories/EnergyPlotsProofs3.v
theories/EnergyPlotsProofs4.v
theories/EnergyPlotsProofs5.v
theories/EnergyPlotsFacts.v
theories/SquaredScale.v
theories/SquaredScaleProofs.v
theories/LoadPotential.v
theories/SpecLoadPotential.v
theories/LoadPotentialProofs.v
theories/SliceAxis.v
theories/SliceAxisProofs.v
theories/SpecSupercellHamiltonian.v
theories/SupercellProofs.v
theories/SupercellProofs2.v
theories/SupercellProofs3.v
theories/SupercellProofs4.v
theories/SupercellProofs5.v
theories/SupercellFacts.v
theories/SupercellFacts2.v
theories/SpecWannierSupercell.v
theories/WannierSupercell.v
theories/WannierSupercell2.v
theories/WannierSupercell3.v
theories/SupercellDynamics.v
theories/ConservedProofs.v
theories/SpecInterlace.v
theories/InterlaceProofs.v
theories/InterlaceProofs2.v
theories/InterlaceProofs3.v
theories/InterlaceFacts.v
theories/SpecSymmetry.v
theories/SymmetryProofs.v
theories/SymmetryProofs2.v
theories/SymmetryFacts.v
theories/SumRuleProofs.v
theories/ProductsProofs.v
theories/ProductsProofs2.v
theories/ProductsFacts.v
theories/RestProofs.v
theories/SeparableProofs.v
theories/SeparableProofs2.v
theories/SeparableProofs3.v
theories/SeparableFacts.v
theories/FreeParticle.v
theories/FreeParticle2.v
theories/BandContinuity.v
theories/Variational.v
theories/ReversalProofs.v
theories/ReversalFacts.v
theories/ReversalProofs2.v
theories/ReversalFacts2.v
theories/ReversalFacts3.v
theories/PropertiesIndex.v
theories/PropertiesBasis.v
theories/PropertiesOperator.v
theories/PropertiesReduce.v
theories/PropertiesKernel.v
theories/PropertiesCache.v
theories/PropertiesWavepacket.v
theories/PropertiesLocalize.v
theories/PropertiesLocalize2.v
theories/PropertiesHamiltonian.v
theories/PropertiesDynamics.v
theories/PropertiesBrillouin.v
theories/PropertiesOscillator.v
theories/PropertiesGenerator.v
theories/PropertiesFourier.v
theories/PropertiesTaylor.v
theories/PropertiesSample.v
theories/PropertiesCorrelation.v
theories/PropertiesKernelConvert.v
theories/PropertiesWannier.v
theories/PropertiesOverlap.v
theories/PropertiesStateList.v
theories/PropertiesSeed.v
theories/PropertiesGamma.v
theories/PropertiesTimes.v
theories/PropertiesLocalizedSSE.v
theories/PropertiesTrajectory.v
theories/PropertiesObservables.v
theories/PropertiesPaths.v
theories/PropertiesBloch.v
theories/PropertiesBlochEnergy.v
theories/PropertiesTightCell.v
theories/PropertiesProjections.v
theories/PropertiesTwoPoint.v
theories/PropertiesStateInterp.v
theories/PropertiesEigenBasis.v
theories/PropertiesUneven.v
theories/PropertiesIncoherent.v
theories/PropertiesIsfFits.v
theories/PropertiesSseSolve.v
theories/PropertiesWannierBasis.v
theories/PropertiesVolumeBasis.v
theories/PropertiesProbConvert.v
theories/PropertiesWaveLists.v
theories/PropertiesWannierWin.v
theories/PropertiesNoiseBuild.v
theories/PropertiesBandsBasis.v
theories/PropertiesSites.v
theories/PropertiesPlots.v
theories/PropertiesIsfFits2.v
theories/PropertiesEffectiveMass.v
theories/PropertiesValuePlots.v
theories/PropertiesOccupation.v
theories/PropertiesShoSubtracted.v
theories/PropertiesKernelPlots.v
theories/PropertiesPathPlots.v
theories/PropertiesStackedPlots.v
theories/PropertiesEnergyPlots.v
theories/PropertiesSquaredScale.v
theories/PropertiesLoadPotential.v
theories/PropertiesSliceAxis.v
theories/PropertiesSupercell.v
theories/PropertiesWannierSupercell.v
theories/PropertiesSupercellDynamics.v
theories/PropertiesConserved.v
theories/PropertiesInterlace.v
theories/PropertiesSymmetry.v
theories/PropertiesSumRule.v
theories/PropertiesProducts.v
theories/PropertiesSeparable.v
theories/PropertiesRest.v
theories/PropertiesFree.v
theories/PropertiesFree2.v
theories/PropertiesBands.v
theories/PropertiesVariational.v
theories/PropertiesReversal.v
theories/PropertiesReversal2.v
theories/PropertiesReversal3.v
